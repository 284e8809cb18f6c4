(** Proofs about IpText.v: the standard library's text forms meet [ip_standard]. *)
From Verif Require Import Base Ints Spec SpecOps BaseLemmas.
From Verif Require Import Text TextSpec TextLemmas MacLemmas NetLemmas IpText.

(** ** Digits *)
Definition hexval (d : N) : byte := nth (N.to_nat d) HEX_LOWER x00.
Lemma below_16 (P : N -> Prop) : (forall k, (k < 16)%nat -> P (N.of_nat k)) -> forall d, d < 16 -> P d.
Proof. intros H d L. rewrite <- (N2Nat.id d). apply H. lia. Qed.
Lemma digit_shown radix d : radix <= 16 -> d < radix -> to_digit radix (hexval d) = Some d.
Proof.
  intros R L. assert (H : is_hex (hexval d) = Some d).
  { revert d L. enough (forall d, d < 16 -> is_hex (hexval d) = Some d) by (intros; apply H; lia). apply below_16.
    intros k H. do 16 (destruct k as [|k]; [vm_compute; reflexivity|]). lia. }
  unfold to_digit. rewrite H. apply N.ltb_lt in L. rewrite L. reflexivity.
Qed.
Lemma hexval_plain d : d < 16 -> hexval d <> COLON /\ hexval d <> DOT /\ (hexval d = "0"%byte -> d = 0).
Proof.
  revert d. apply below_16. intros k H. do 16 (destruct k as [|k]; [vm_compute; (repeat split); (discriminate || reflexivity)|]). lia.
Qed.
Lemma colon_digit radix : to_digit radix COLON = None.
Proof. reflexivity. Qed.
Lemma dot_digit radix : to_digit radix DOT = None.
Proof. reflexivity. Qed.

(** What follows a number: nothing, or something that is not a digit. *)
Definition stops (radix : N) (s : bytes) : Prop := match s with [] => True | c :: _ => to_digit radix c = None end.
Lemma loop_stops radix limit max acc c s : stops radix s -> number_loop radix limit max acc c s = Some (acc, c, s).
Proof. destruct s as [|x s]; cbn; [reflexivity|]. intros ->. reflexivity. Qed.

Lemma in_radix_unfold radix k n : in_radix radix (S k) n = (if n <? radix then [] else in_radix radix k (n / radix)) ++ [hexval (n mod radix)].
Proof. reflexivity. Qed.
Lemma loop_shown radix limit max k : 2 <= radix -> radix <= 16 -> forall n c rest,
  n < radix ^ N.of_nat (S k) -> n < limit -> (c + S k <= max)%nat ->
  exists m, (1 <= m <= S k)%nat /\ m = length (in_radix radix (S k) n) /\
    number_loop radix limit max 0 c (in_radix radix (S k) n ++ rest) = number_loop radix limit max n (c + m) rest.
Proof.
  intros R2 R16. induction k as [|k IH]; intros n c rest B L M.
  - exists 1%nat. change (N.of_nat 1) with 1 in B. rewrite N.pow_1_r in B. rewrite in_radix_unfold.
    rewrite (proj2 (N.ltb_lt _ _) B). cbn [app length number_loop]. rewrite N.mod_small by lia.
    rewrite digit_shown by lia. split; [lia|]. split; [reflexivity|].
    rewrite (proj2 (N.ltb_lt (0 * radix) limit)), (proj2 (N.ltb_lt (0 * radix + n) limit)) by lia.
    rewrite (proj2 (Nat.leb_le (S c) max)) by lia. cbn [andb]. rewrite N.mul_0_l, N.add_0_l. f_equal. lia.
  - rewrite in_radix_unfold. destruct (N.ltb_spec n radix) as [S|S].
    + exists 1%nat. cbn [app length number_loop]. rewrite N.mod_small by lia. rewrite digit_shown by lia.
      split; [lia|]. split; [reflexivity|].
      rewrite (proj2 (N.ltb_lt (0 * radix) limit)), (proj2 (N.ltb_lt (0 * radix + n) limit)) by lia.
      rewrite (proj2 (Nat.leb_le (Datatypes.S c) max)) by lia. cbn [andb]. rewrite N.mul_0_l, N.add_0_l. f_equal. lia.
    + assert (B' : n / radix < radix ^ N.of_nat (Datatypes.S k)).
      { apply N.div_lt_upper_bound; [lia|]. rewrite <- N.pow_succ_r by lia. replace (N.succ (N.of_nat (Datatypes.S k))) with (N.of_nat (Datatypes.S (Datatypes.S k))) by lia. exact B. }
      pose proof (N.div_mod n radix ltac:(lia)) as D. pose proof (N.mod_lt n radix ltac:(lia)) as D'.
      assert (L' : n / radix < limit) by nia.
      destruct (IH (n / radix) c ([hexval (n mod radix)] ++ rest) B' L' ltac:(lia)) as (m & Hm & Lm & E).
      exists (Datatypes.S m). split; [lia|]. split; [rewrite app_length, <- Lm; cbn; lia|].
      rewrite <- app_assoc, E. cbn [app number_loop]. rewrite digit_shown by lia.
      rewrite (proj2 (N.ltb_lt (n / radix * radix) limit)), (proj2 (N.ltb_lt (n / radix * radix + n mod radix) limit)) by lia.
      rewrite (proj2 (Nat.leb_le (Datatypes.S (c + m)) max)) by lia. cbn [andb].
      f_equal; lia.
Qed.
Lemma in_radix_first radix k : 2 <= radix -> radix <= 16 -> forall n, n < radix ^ N.of_nat (S k) ->
  hd x00 (in_radix radix (S k) n) = "0"%byte -> n = 0.
Proof.
  intros R2 R16. induction k as [|k IH]; intros n B H; rewrite in_radix_unfold in H.
  - change (N.of_nat 1) with 1 in B. rewrite N.pow_1_r in B. rewrite (proj2 (N.ltb_lt _ _) B) in H. cbn [app hd] in H.
    rewrite N.mod_small in H by lia. apply hexval_plain in H; lia.
  - destruct (N.ltb_spec n radix) as [S|S].
    + cbn [app hd] in H. rewrite N.mod_small in H by lia. apply hexval_plain in H; lia.
    + assert (B' : n / radix < radix ^ N.of_nat (Datatypes.S k)).
      { apply N.div_lt_upper_bound; [lia|]. rewrite <- N.pow_succ_r by lia. replace (N.succ (N.of_nat (Datatypes.S k))) with (N.of_nat (Datatypes.S (Datatypes.S k))) by lia. exact B. }
      assert (H' : hd x00 (in_radix radix (Datatypes.S k) (n / radix)) = "0"%byte).
      { destruct (in_radix radix (Datatypes.S k) (n / radix)) as [|x l] eqn:E; [|exact H].
        rewrite in_radix_unfold in E. destruct (if n / radix <? radix then _ else _) in E; discriminate. }
      apply IH in H'; [|exact B']. pose proof (N.div_mod n radix ltac:(lia)). pose proof (N.mod_lt n radix ltac:(lia)). nia.
Qed.
Lemma in_radix_plain radix k n c : 2 <= radix -> radix <= 16 -> In c (in_radix radix k n) -> c <> COLON /\ c <> DOT.
Proof.
  intros R2 R16. revert n. induction k as [|k IH]; intros n; [intros []|]. rewrite in_radix_unfold, in_app_iff. intros [H|[<-|[]]].
  - destruct (n <? radix); [destruct H|]. eapply IH, H.
  - pose proof (N.mod_lt n radix ltac:(lia)). split; apply hexval_plain; lia.
Qed.
Lemma in_radix_cons radix k n : exists c l, in_radix radix (S k) n = c :: l.
Proof. rewrite in_radix_unfold. destruct (if n <? radix then _ else _); cbn; eauto. Qed.

Lemma read_shown radix limit max zero k n rest : 2 <= radix -> radix <= 16 -> n < radix ^ N.of_nat (S k) -> n < limit -> (S k <= max)%nat ->
  stops radix rest -> read_number radix limit max zero (in_radix radix (S k) n ++ rest) = Some (n, rest).
Proof.
  intros R2 R16 B L M H. destruct (loop_shown radix limit max k R2 R16 n 0%nat rest B L M) as (m & Hm & Lm & E). unfold read_number. rewrite E.
  rewrite loop_stops by exact H. cbn [Nat.add]. replace (m =? 0)%nat with false by (symmetry; apply Nat.eqb_neq; lia).
  destruct (in_radix_cons radix k n) as (c & l & E1). rewrite E1. cbn [app].
  destruct (negb zero && Byte.eqb c "0"%byte && (1 <? m)%nat) eqn:Z; [|reflexivity].
  apply andb_true_iff in Z as [Z1 Z2]. apply andb_true_iff in Z1 as [_ Z1]. apply byte_eqb_eq in Z1 as ->.
  assert (n = 0) as -> by (eapply in_radix_first; [exact R2|exact R16|exact B|rewrite E1; reflexivity]).
  rewrite in_radix_unfold in Lm. rewrite (proj2 (N.ltb_lt 0 radix)) in Lm by lia. cbn in Lm. subst m. discriminate.
Qed.

(** ** IPv4 *)
Lemma read_u8 b rest : stops 10 rest -> read_number 10 256 3 false (show_u8 b ++ rest) = Some (b2n b, rest).
Proof.
  intros H. apply read_shown; try lia; [|apply b2n_lt|exact H]. pose proof (b2n_lt b). cbn. lia.
Qed.
Lemma given_same c s : given c (c :: s) = Some s.
Proof. cbn. rewrite (proj2 (byte_eqb_eq c c) eq_refl). reflexivity. Qed.
Lemma octet_shown i b rest : stops 10 rest -> octet i ((match i with O => [] | S _ => [DOT] end) ++ show_u8 b ++ rest) = Some (b2n b, rest).
Proof. intros H. destruct i; cbn [octet app]; unfold octet, separated; [|rewrite given_same]; apply read_u8, H. Qed.
Lemma read_shown4 p q r s rest : stops 10 rest ->
  read_ipv4 (show_u8 p ++ [DOT] ++ show_u8 q ++ [DOT] ++ show_u8 r ++ [DOT] ++ show_u8 s ++ rest) = Some ([b2n p; b2n q; b2n r; b2n s], rest).
Proof.
  intros H. unfold read_ipv4.
  pose proof (octet_shown 0 p ([DOT] ++ show_u8 q ++ [DOT] ++ show_u8 r ++ [DOT] ++ show_u8 s ++ rest) eq_refl) as E0. cbn [app] in E0 |- *. rewrite E0.
  pose proof (octet_shown 1 q ([DOT] ++ show_u8 r ++ [DOT] ++ show_u8 s ++ rest) eq_refl) as E1. cbn [app] in E1 |- *. rewrite E1.
  pose proof (octet_shown 2 r ([DOT] ++ show_u8 s ++ rest) eq_refl) as E2. cbn [app] in E2 |- *. rewrite E2.
  pose proof (octet_shown 3 s rest H) as E3. cbn [app] in E3 |- *. rewrite E3. reflexivity.
Qed.
Lemma show_u8_length b : (length (show_u8 b) <= 3)%nat.
Proof.
  pose proof (b2n_lt b) as H. unfold show_u8. destruct (loop_shown 10 256 3 2 ltac:(lia) ltac:(lia) (b2n b) 0 []) as (m & Hm & Lm & _); try (cbn; lia).
  rewrite <- Lm. lia.
Qed.
Lemma four a : size a = 4 -> exists p q r s, a = [p; q; r; s].
Proof.
  change size with (@lenN byte). unfold lenN. intros H. destruct a as [|p [|q [|r [|s [|? a]]]]]; cbn [length] in H; try lia. eauto.
Qed.
Lemma v4_round_trip a : size a = 4 -> std_parse4 (std_show4 a) = Some a.
Proof.
  intros H. destruct (four a H) as (p & q & r & s & ->). unfold std_parse4.
  assert (L : lenN (std_show4 [p; q; r; s]) <= 15).
  { cbn [std_show4]. unfold lenN. rewrite !app_length. cbn [length].
    pose proof (show_u8_length p). pose proof (show_u8_length q). pose proof (show_u8_length r). pose proof (show_u8_length s). lia. }
  replace (15 <? lenN (std_show4 [p; q; r; s])) with false by lia.
  pose proof (read_shown4 p q r s [] I) as E. rewrite app_nil_r in E. cbn [std_show4]. rewrite E. cbn [map]. rewrite !n2b_b2n. reflexivity.
Qed.
Lemma show4_dot a : size a = 4 -> In DOT (std_show4 a).
Proof. intros H. destruct (four a H) as (p & q & r & s & ->). cbn [std_show4]. apply in_or_app. right. left. reflexivity. Qed.
Lemma show4_no_colon a : ~ In COLON (std_show4 a).
Proof.
  assert (D : forall b, ~ In COLON (show_u8 b)) by (intros b H; apply in_radix_plain in H; try lia; destruct H; congruence).
  destruct a as [|p [|q [|r [|s [|? a]]]]]; try (intros []). cbn [std_show4]. rewrite !in_app_iff. unfold COLON, DOT in *. cbn [In].
  intros H. repeat (destruct H as [H|H]); try (eapply D, H); try discriminate; try contradiction.
Qed.

(** ** What a parser consumed *)
Lemma loop_suffix radix limit max s : forall acc c n m r, number_loop radix limit max acc c s = Some (n, m, r) ->
  exists pre, s = pre ++ r /\ ~ In COLON pre.
Proof.
  induction s as [|x s IH]; intros acc c n m r; cbn [number_loop]; [intros H; injection H as <- <- <-; exists []; split; [reflexivity|intros []]|].
  destruct (to_digit radix x) as [d|] eqn:D; [|intros H; injection H as <- <- <-; exists []; split; [reflexivity|intros []]].
  destruct (_ && _ && _); [|discriminate]. intros H. apply IH in H as (pre & -> & N). exists (x :: pre). split; [reflexivity|].
  intros [-> |X]; [rewrite colon_digit in D; discriminate|exact (N X)].
Qed.
Lemma number_suffix radix limit max z s n r : read_number radix limit max z s = Some (n, r) -> exists pre, s = pre ++ r /\ ~ In COLON pre.
Proof.
  unfold read_number. destruct (number_loop radix limit max 0 0 s) as [[[k c] r']|] eqn:E; [|discriminate].
  destruct (c =? 0)%nat; [discriminate|]. destruct (_ && _ && _); [discriminate|]. intros H. injection H as <- <-. eapply loop_suffix, E.
Qed.
Lemma given_is c s r : given c s = Some r -> s = c :: r.
Proof.
  destruct s as [|x s]; cbn; [discriminate|]. destruct (Byte.eqb x c) eqn:E; [|discriminate]. apply byte_eqb_eq in E as ->. intros H. injection H as ->. reflexivity.
Qed.
Lemma octet_suffix i s n r : octet i s = Some (n, r) -> exists pre, s = pre ++ r /\ (i <> O -> In DOT pre).
Proof.
  unfold octet, separated. destruct i.
  - intros H. apply number_suffix in H as (pre & -> & _). exists pre. split; [reflexivity|congruence].
  - destruct (given DOT s) as [s'|] eqn:G; [|discriminate]. apply given_is in G as ->. intros H. apply number_suffix in H as (pre & -> & _).
    exists (DOT :: pre). split; [reflexivity|]. left. reflexivity.
Qed.
Lemma ipv4_suffix s a r : read_ipv4 s = Some (a, r) -> exists pre, s = pre ++ r /\ In DOT pre.
Proof.
  unfold read_ipv4. destruct (octet 0 s) as [[a0 s1]|] eqn:E0; [|discriminate]. destruct (octet 1 s1) as [[a1 s2]|] eqn:E1; [|discriminate].
  destruct (octet 2 s2) as [[a2 s3]|] eqn:E2; [|discriminate]. destruct (octet 3 s3) as [[a3 s4]|] eqn:E3; [|discriminate].
  intros H. injection H as <- <-. apply octet_suffix in E0 as (p0 & -> & _), E1 as (p1 & -> & D), E2 as (p2 & -> & _), E3 as (p3 & -> & _).
  exists (p0 ++ p1 ++ p2 ++ p3). rewrite <- !app_assoc. split; [reflexivity|]. rewrite !in_app_iff. right. left. apply D. discriminate.
Qed.
Lemma colons_app a b : colons (a ++ b) = (colons a + colons b)%nat.
Proof. unfold colons. rewrite filter_app, app_length. reflexivity. Qed.
Lemma separated_suffix {A} (p : bytes -> option (A * bytes)) i s x r :
  (forall t y q, p t = Some (y, q) -> exists pre, t = pre ++ q) -> separated COLON i p s = Some (x, r) ->
  exists pre, s = pre ++ r /\ (i <> O -> 1 <= colons pre)%nat.
Proof.
  intros HP. destruct i; cbn [separated].
  - intros H. apply HP in H as (pre & ->). exists pre. split; [reflexivity|congruence].
  - destruct (given COLON s) as [s'|] eqn:G; [|discriminate]. apply given_is in G as ->. intros H. apply HP in H as (pre & ->).
    exists (COLON :: pre). split; [reflexivity|]. intros _. unfold colons. cbn [filter]. change ":"%byte with COLON.
    rewrite (proj2 (byte_eqb_eq COLON COLON) eq_refl). cbn. lia.
Qed.
Lemma groups_suffix left : forall i s gs v4 r, read_groups i left s = (gs, v4, r) ->
  exists pre, s = pre ++ r /\ (length gs <= left /\ length gs <= colons pre + (if v4 then 1 else 0) + (match i with O => 1 | S _ => 0 end))%nat.
Proof.
  induction left as [|left IH]; intros i s gs v4 r; cbn [read_groups].
  - intros H. injection H as <- <- <-. exists []. split; [reflexivity|]. cbn. lia.
  - destruct (match left with O => None | S _ => separated COLON i read_ipv4 s end) as [[a q]|] eqn:E4.
    + destruct left as [|left]; [discriminate|]. intros H. injection H as <- <- <-.
      apply separated_suffix in E4 as (pre & -> & C); [|intros t y k HH; apply ipv4_suffix in HH as (pp & -> & _); eauto].
      exists pre. split; [reflexivity|]. cbn [length]. destruct i; [lia|]. specialize (C ltac:(discriminate)). lia.
    + destruct (separated COLON i (read_number 16 65536 4 true) s) as [[g q]|] eqn:EG.
      * destruct (read_groups (S i) left q) as [[gs' v4'] r'] eqn:ER. intros H. injection H as <- <- <-.
        apply separated_suffix in EG as (pre & -> & C); [|intros t y k HH; apply number_suffix in HH as (pp & -> & _); eauto].
        apply IH in ER as (pre' & -> & L1 & L2). exists (pre ++ pre'). rewrite <- app_assoc. split; [reflexivity|]. rewrite colons_app. cbn [length].
        destruct i; [lia|]. specialize (C ltac:(discriminate)). lia.
      * intros H. injection H as <- <- <-. exists []. split; [reflexivity|]. cbn. lia.
Qed.
Lemma few_colons s : (colons s < 6)%nat -> (forall i, ~ occurs_at [":"; ":"]%byte s i) -> std_parse6 s = None.
Proof.
  intros C N. unfold std_parse6, read_ipv6. destruct (read_groups 0 8 s) as [[head v4] r] eqn:E.
  apply groups_suffix in E as (pre & -> & L1 & L2). rewrite colons_app in C. destruct (Nat.eqb_spec (length head) 8) as [E8|E8].
  { destruct v4; lia. }
  destruct v4; [reflexivity|]. destruct (given COLON r) as [r1|] eqn:G1; [|reflexivity]. apply given_is in G1 as ->.
  destruct (given COLON r1) as [r2|] eqn:G2; [|reflexivity]. apply given_is in G2 as ->. exfalso.
  apply (N (length pre)). exists pre, r2. split; reflexivity.
Qed.

(** ** IPv6 *)
Lemma read_x g rest : g < 65536 -> stops 16 rest -> read_number 16 65536 4 true (show_x g ++ rest) = Some (g, rest).
Proof. intros H S. apply (read_shown 16 65536 4 true 3 g rest); try lia; try exact S. Qed.
Lemma no_dot_ipv4 s i : ~ In DOT s -> separated COLON i read_ipv4 s = None.
Proof.
  intros H. assert (R : forall t, ~ In DOT t -> read_ipv4 t = None).
  { intros t Ht. destruct (read_ipv4 t) as [[a r]|] eqn:E; [|reflexivity]. apply ipv4_suffix in E as (pre & -> & D).
    exfalso. apply Ht, in_or_app. left. exact D. }
  destruct i; cbn [separated]; [apply R, H|]. destruct (given COLON s) as [r|] eqn:G; [|reflexivity]. apply given_is in G as ->.
  apply R. intros X. apply H. right. exact X.
Qed.
Definition tail_text (gs : list N) : bytes := flat_map (fun g => COLON :: show_x g) gs.
Lemma show_groups_tail g gs : show_groups (g :: gs) = show_x g ++ tail_text gs.
Proof.
  revert g. induction gs as [|h gs IH]; intros g; [cbn; rewrite app_nil_r; reflexivity|].
  change (show_groups (g :: h :: gs)) with (show_x g ++ [COLON] ++ show_groups (h :: gs)). rewrite IH. reflexivity.
Qed.
Lemma show_x_plain g c : In c (show_x g) -> c <> COLON /\ c <> DOT.
Proof. apply in_radix_plain; lia. Qed.
Lemma tail_no_dot gs : ~ In DOT (tail_text gs).
Proof.
  unfold tail_text. rewrite in_flat_map. intros (g & _ & [X|X]); [discriminate|]. apply show_x_plain in X as [_ X]. congruence.
Qed.
Lemma groups_no_dot gs : ~ In DOT (show_groups gs).
Proof.
  destruct gs as [|g gs]; [intros []|]. rewrite show_groups_tail, in_app_iff. intros [X|X]; [|exact (tail_no_dot gs X)].
  apply show_x_plain in X as [_ X]. congruence.
Qed.
(** What may follow the groups: nothing or "::". *)
Definition ends (rest : bytes) : Prop := rest = [] \/ exists r, rest = COLON :: COLON :: r.
Lemma tail_stops gs rest : ends rest -> stops 16 (tail_text gs ++ rest).
Proof. intros E. destruct gs; [|reflexivity]. destruct E as [-> |(r & ->)]; [exact I|reflexivity]. Qed.
Lemma number_at_colon r : read_number 16 65536 4 true (COLON :: r) = None.
Proof. reflexivity. Qed.
Lemma read_groups_plain i left s : ~ In DOT s -> read_groups i (S left) s =
  match separated COLON i (read_number 16 65536 4 true) s with
  | Some (g, r) => let '(gs, v4, r') := read_groups (S i) left r in (g :: gs, v4, r')
  | None => ([], false, s)
  end.
Proof.
  intros H. cbn [read_groups]. replace (match left with O => None | S _ => separated COLON i read_ipv4 s end) with (@None (list N * bytes)); [reflexivity|].
  destruct left; [reflexivity|]. symmetry. apply no_dot_ipv4, H.
Qed.
Lemma tail_read gs : forall i left rest, Forall (fun g => g < 65536) gs -> (length gs <= left)%nat -> ends rest -> ~ In DOT rest ->
  read_groups (S i) left (tail_text gs ++ rest) = (gs, false, rest).
Proof.
  induction gs as [|g gs IH]; intros i left rest F L E D.
  - cbn [tail_text flat_map app]. destruct left; [reflexivity|]. rewrite read_groups_plain by exact D.
    destruct E as [-> |(r & ->)]; [reflexivity|]. cbn [separated]. rewrite given_same, number_at_colon. reflexivity.
  - destruct left; [cbn in L; lia|]. inversion F; subst. rewrite read_groups_plain.
    + cbn [tail_text flat_map app separated]. rewrite given_same, <- app_assoc. rewrite read_x; [|assumption|apply tail_stops, E].
      fold (tail_text gs). rewrite IH; auto. cbn in L. lia.
    + rewrite in_app_iff. intros [X|X]; [exact (tail_no_dot _ X)|exact (D X)].
Qed.
Lemma groups_read gs left rest : Forall (fun g => g < 65536) gs -> (length gs <= left)%nat -> ends rest -> ~ In DOT rest ->
  read_groups 0 left (show_groups gs ++ rest) = (gs, false, rest).
Proof.
  intros F L E D. destruct gs as [|g gs].
  - cbn [show_groups app]. destruct left; [reflexivity|]. rewrite read_groups_plain by exact D.
    destruct E as [-> |(r & ->)]; [reflexivity|]. cbn [separated]. rewrite number_at_colon. reflexivity.
  - destruct left; [cbn in L; lia|]. inversion F; subst. rewrite read_groups_plain.
    + rewrite show_groups_tail, <- app_assoc. cbn [separated]. rewrite read_x; [|assumption|apply tail_stops, E].
      rewrite tail_read; auto. cbn in L. lia.
    + rewrite in_app_iff. intros [X|X]; [exact (groups_no_dot _ X)|exact (D X)].
Qed.

(** The run of zeros. *)
Definition zeros_in (L : list N) (s : nat * nat) : Prop := forall j, (fst s <= j < fst s + snd s)%nat -> nth j L 1 = 0.
Lemma zero_run_ok l : forall pre cur best,
  (snd cur = O \/ fst cur + snd cur = length pre)%nat -> zeros_in (pre ++ l) cur ->
  (fst best + snd best <= length pre)%nat -> zeros_in (pre ++ l) best ->
  let r := zero_run (length pre) cur best l in (fst r + snd r <= length (pre ++ l))%nat /\ zeros_in (pre ++ l) r.
Proof.
  induction l as [|g l IH]; intros pre cur best C ZC B ZB; cbn [zero_run].
  - rewrite app_nil_r in *. split; [exact B|exact ZB].
  - replace (pre ++ g :: l) with ((pre ++ [g]) ++ l) in * by (rewrite <- app_assoc; reflexivity).
    replace (S (length pre)) with (length (pre ++ [g])) by (rewrite app_length; cbn; lia).
    destruct (N.eqb_spec g 0) as [-> |G].
    + set (cur' := (match snd cur with O => length pre | S _ => fst cur end, S (snd cur))).
      assert (C' : (fst cur' + snd cur' = length (pre ++ [0%N]))%nat).
      { rewrite app_length. cbn [length]. unfold cur'. cbn [fst snd]. destruct (snd cur) eqn:S0; lia. }
      assert (Z' : zeros_in ((pre ++ [0]) ++ l) cur').
      { intros j Hj. rewrite C' in Hj. rewrite app_length in Hj. cbn [length] in Hj. destruct (Nat.eq_dec j (length pre)) as [-> |Nj].
        - rewrite app_nth1 by (rewrite app_length; cbn; lia). rewrite app_nth2 by lia. rewrite Nat.sub_diag. reflexivity.
        - apply ZC. unfold cur' in Hj. cbn [fst] in Hj. destruct (snd cur) eqn:S0; lia. }
      apply IH; auto.
      * destruct (snd best <? snd cur')%nat; [lia|]. rewrite app_length. cbn. lia.
      * destruct (snd best <? snd cur')%nat; assumption.
    + apply IH; auto.
      * intros j Hj. cbn in Hj. lia.
      * rewrite app_length. cbn. lia.
Qed.
Lemma firstn_zeros (L : list N) n : (n <= length L)%nat -> (forall j, (j < n)%nat -> nth j L 1 = 0) -> firstn n L = repeat 0 n.
Proof.
  revert L. induction n as [|n IH]; intros L H Z; [reflexivity|]. destruct L as [|g L]; [cbn in H; lia|]. cbn [firstn repeat].
  pose proof (Z O ltac:(lia)) as Z0. cbn in Z0. subst g. f_equal. apply IH; [cbn in H; lia|]. intros j Hj. apply (Z (S j)). lia.
Qed.
Lemma zeros_split L start len : (start + len <= length L)%nat -> zeros_in L (start, len) ->
  L = firstn start L ++ repeat 0 len ++ skipn (start + len) L.
Proof.
  intros H Z. rewrite <- (firstn_skipn start L) at 1. f_equal. rewrite <- (firstn_skipn len (skipn start L)). f_equal.
  - apply firstn_zeros; [rewrite skipn_length; lia|]. intros j Hj. specialize (Z (start + j)%nat ltac:(cbn; lia)).
    rewrite <- Z. rewrite <- (firstn_skipn start L) at 2. rewrite app_nth2 by (rewrite firstn_length; lia). rewrite firstn_length, Nat.min_l by lia.
    f_equal. lia.
  - clear. revert start. induction L as [|g L IH]; intros start; [rewrite !skipn_nil; reflexivity|].
    destruct start; [reflexivity|]. cbn [skipn Nat.add]. apply IH.
Qed.

(** Segments and octets. *)
Lemma segment_lt p q : from_bytes Be [p; q] < 65536.
Proof. exact (be_val_lt [p; q]). Qed.
Lemma segment_value p q : from_bytes Be [p; q] = b2n p * 256 + b2n q.
Proof. unfold from_bytes, be_val. cbn [rev app le_val]. lia. Qed.
Lemma segments_lt a : Forall (fun g => g < 65536) (segments a).
Proof.
  assert (H : forall n a, (length a <= n)%nat -> Forall (fun g => g < 65536) (segments a)).
  { clear a. induction n as [|n IH]; intros a L; destruct a as [|p [|q a]]; try constructor; try (cbn in L; lia).
    - apply segment_lt.
    - apply IH. cbn in L. lia. }
  apply (H (length a)). lia.
Qed.
Lemma segments_back p q r : segments_octets (from_bytes Be [p; q] :: segments r) = p :: q :: segments_octets (segments r).
Proof.
  unfold segments_octets. cbn [flat_map]. change 2%nat with (length [p; q]) at 1. rewrite (to_from_bytes Be). reflexivity.
Qed.
Lemma sixteen a : size a = 16 -> exists a0 a1 a2 a3 a4 a5 a6 a7 a8 a9 b0 b1 b2 b3 b4 b5,
  a = [a0; a1; a2; a3; a4; a5; a6; a7; a8; a9; b0; b1; b2; b3; b4; b5].
Proof.
  change size with (@lenN byte). unfold lenN. intros H. assert (L : length a = 16%nat) by lia. clear H.
  do 16 (destruct a as [|? a]; [discriminate|]). destruct a; [|discriminate]. repeat eexists.
Qed.
Lemma octets_segments a : size a = 16 -> segments_octets (segments a) = a /\ length (segments a) = 8%nat.
Proof.
  intros H. destruct (sixteen a H) as (a0 & a1 & a2 & a3 & a4 & a5 & a6 & a7 & a8 & a9 & b0 & b1 & b2 & b3 & b4 & b5 & ->).
  cbn [segments]. split; [|reflexivity].
  unfold segments_octets. cbn [flat_map]. change 2%nat with (length [a0; a1]) at 1. rewrite (to_from_bytes Be).
  repeat match goal with |- context [to_bytes Be 2 (from_bytes Be [?p; ?q])] => change (to_bytes Be 2 (from_bytes Be [p; q])) with (to_bytes Be (length [p; q]) (from_bytes Be [p; q])); rewrite (to_from_bytes Be [p; q]) end.
  reflexivity.
Qed.

Lemma read_compressed L start len : length L = 8%nat -> Forall (fun g => g < 65536) L -> (start + len <= 8)%nat -> (1 < len)%nat -> zeros_in L (start, len) ->
  read_ipv6 (show_groups (firstn start L) ++ [COLON; COLON] ++ show_groups (skipn (start + len) L)) = Some (L, []).
Proof.
  intros L8 F H1 H2 Z. unfold read_ipv6. set (tl := show_groups (skipn (start + len) L)).
  assert (D : ~ In DOT ([COLON; COLON] ++ tl)).
  { cbn [app In]. intros [X|[X|X]]; try discriminate. exact (groups_no_dot _ X). }
  rewrite (groups_read (firstn start L) 8 ([COLON; COLON] ++ tl)).
  - rewrite firstn_length, Nat.min_l by lia. replace (start =? 8)%nat with false by (symmetry; apply Nat.eqb_neq; lia).
    cbn [app]. rewrite !given_same. unfold tl. rewrite <- (app_nil_r (show_groups (skipn (start + len) L))).
    rewrite (groups_read (skipn (start + len) L) (7 - start) []).
    + rewrite skipn_length, L8. replace (8 - start - (8 - (start + len)))%nat with len by lia. rewrite <- (zeros_split L start len); [reflexivity|lia|exact Z].
    + clear - F. rewrite Forall_forall in *. intros x X. apply F. rewrite <- (firstn_skipn (start + len) L). apply in_or_app. right. exact X.
    + rewrite skipn_length. lia.
    + left. reflexivity.
    + intros [].
  - clear - F. rewrite Forall_forall in *. intros x X. apply F. rewrite <- (firstn_skipn start L). apply in_or_app. left. exact X.
  - rewrite firstn_length. lia.
  - right. exists tl. reflexivity.
  - exact D.
Qed.
Lemma read_full L : length L = 8%nat -> Forall (fun g => g < 65536) L -> read_ipv6 (show_groups L) = Some (L, []).
Proof.
  intros L8 F. unfold read_ipv6. rewrite <- (app_nil_r (show_groups L)), (groups_read L 8 []); [|exact F|lia|left; reflexivity|intros []].
  rewrite L8. reflexivity.
Qed.
Lemma read_mapped p q r s : read_ipv6 ([COLON; COLON] ++ show_x 65535 ++ [COLON] ++ std_show4 [p; q; r; s])
  = Some ([0; 0; 0; 0; 0; 65535; b2n p * 256 + b2n q; b2n r * 256 + b2n s], []).
Proof.
  unfold read_ipv6. set (t := std_show4 [p; q; r; s]). change (show_x 65535) with ["f"; "f"; "f"; "f"]%byte. cbn [app].
  change (read_groups 0 8 (COLON :: COLON :: "f"%byte :: "f"%byte :: "f"%byte :: "f"%byte :: COLON :: t))
    with (@nil N, false, COLON :: COLON :: "f"%byte :: "f"%byte :: "f"%byte :: "f"%byte :: COLON :: t).
  cbv iota. cbn [length Nat.eqb]. rewrite !given_same. cbn [Nat.sub].
  assert (G : read_groups 1 6 (COLON :: t) = ([b2n p * 256 + b2n q; b2n r * 256 + b2n s], true, [])).
  { cbn [read_groups separated]. rewrite given_same. unfold t. cbn [std_show4].
    pose proof (read_shown4 p q r s [] I) as E. rewrite app_nil_r in E. rewrite E. reflexivity. }
  assert (H : read_groups 0 7 ("f"%byte :: "f"%byte :: "f"%byte :: "f"%byte :: COLON :: t) = ([65535; b2n p * 256 + b2n q; b2n r * 256 + b2n s], true, [])).
  { change (read_groups 0 7 ("f"%byte :: "f"%byte :: "f"%byte :: "f"%byte :: COLON :: t))
      with (let '(gs, v4, r') := read_groups 1 6 (COLON :: t) in (65535 :: gs, v4, r')). rewrite G. reflexivity. }
  rewrite H. reflexivity.
Qed.
Lemma v6_round_trip a : size a = 16 -> std_parse6 (std_show6 a) = Some a.
Proof.
  intros H. destruct (octets_segments a H) as [O L8]. pose proof (segments_lt a) as F. unfold std_parse6, std_show6. cbv zeta.
  destruct (mapped (segments a)) eqn:M.
  - destruct (sixteen a H) as (a0 & a1 & a2 & a3 & a4 & a5 & a6 & a7 & a8 & a9 & b0 & b1 & b2 & b3 & b4 & b5 & ->).
    cbn [skipn]. rewrite read_mapped. rewrite <- !segment_value. cbn [segments] in O, M. rewrite <- O. unfold mapped in M.
    apply andb_true_iff in M as [M M5]. apply andb_true_iff in M as [M M4]. apply andb_true_iff in M as [M M3].
    apply andb_true_iff in M as [M M2]. apply andb_true_iff in M as [M M1]. apply N.eqb_eq in M, M1, M2, M3, M4, M5.
    rewrite M, M1, M2, M3, M4, M5. reflexivity.
  - pose proof (zero_run_ok (segments a) [] (0, 0)%nat (0, 0)%nat ltac:(left; reflexivity)) as Z. cbn [app length] in Z.
    destruct Z as [Z1 Z2]; [intros j Hj; cbn in Hj; lia|reflexivity|intros j Hj; cbn in Hj; lia|].
    destruct (zero_run 0 (0, 0)%nat (0, 0)%nat (segments a)) as [start len]. cbn [fst snd] in Z1. rewrite L8 in Z1.
    destruct (Nat.ltb_spec 1 len) as [S|S].
    + rewrite read_compressed by assumption. rewrite O. reflexivity.
    + rewrite read_full by assumption. rewrite O. reflexivity.
Qed.
Lemma show6_colon a : size a = 16 -> In COLON (std_show6 a).
Proof.
  intros H. destruct (octets_segments a H) as [_ L8]. unfold std_show6. cbv zeta. destruct (mapped (segments a)); [left; reflexivity|].
  destruct (zero_run 0 (0, 0)%nat (0, 0)%nat (segments a)) as [start len]. destruct (1 <? len)%nat.
  - apply in_or_app. right. left. reflexivity.
  - destruct (segments a) as [|g [|h l]]; try discriminate. cbn [show_groups]. apply in_or_app. right. left. reflexivity.
Qed.
Theorem std_ip_standard : ip_standard std_ip.
Proof.
  split; [|split].
  - intros a H. cbn [parse4 show4 std_ip]. split; [apply v4_round_trip, H|]. split; [apply show4_dot, H|apply show4_no_colon].
  - intros a H. cbn [parse6 show6 std_ip]. split; [apply v6_round_trip, H|apply show6_colon, H].
  - exact few_colons.
Qed.

(** Sizes of what is accepted. *)
Lemma std_parse4_size s a : std_parse4 s = Some a -> size a = 4.
Proof.
  unfold std_parse4. destruct (15 <? lenN s); [discriminate|]. unfold read_ipv4.
  destruct (octet 0 s) as [[a0 s1]|]; [|discriminate]. destruct (octet 1 s1) as [[a1 s2]|]; [|discriminate].
  destruct (octet 2 s2) as [[a2 s3]|]; [|discriminate]. destruct (octet 3 s3) as [[a3 s4]|]; [|discriminate].
  destruct s4; [|discriminate]. intros H. injection H as <-. reflexivity.
Qed.
Lemma octets_length l : size (segments_octets l) = 2 * N.of_nat (length l).
Proof.
  change size with (@lenN byte). unfold lenN, segments_octets. induction l as [|g l IH]; [reflexivity|]. cbn [flat_map length].
  rewrite app_length. change (length (to_bytes Be 2 g)) with 2%nat. lia.
Qed.
Lemma std_parse6_size s a : std_parse6 s = Some a -> size a = 16.
Proof.
  unfold std_parse6, read_ipv6. destruct (read_groups 0 8 s) as [[head v4] r] eqn:E. destruct (Nat.eqb_spec (length head) 8) as [E8|E8].
  - destruct r; [|discriminate]. intros H. injection H as <-. rewrite octets_length, E8. reflexivity.
  - destruct v4; [discriminate|]. apply groups_suffix in E as (pre & _ & L1 & _). destruct (given COLON r) as [r1|]; [|discriminate].
    destruct (given COLON r1) as [r2|]; [|discriminate]. destruct (read_groups 0 (7 - length head) r2) as [[tail t4] r3] eqn:E2.
    apply groups_suffix in E2 as (pre2 & _ & L2 & _). destruct r3; [|discriminate]. intros H.
    assert (a = segments_octets (head ++ repeat 0 (8 - length head - length tail) ++ tail)) as -> by congruence.
    rewrite octets_length, !app_length, repeat_length. lia.
Qed.

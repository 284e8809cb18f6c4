(** Proofs about Text.v: decimal numbers and network addresses. *)
From Verif Require Import Base Ints Spec SpecOps Reader Writer BaseLemmas ReaderLemmas WriterLemmas Utf8Spec Utf8Lemmas.
From Verif Require Import Text TextSpec TextLemmas MacLemmas.

(** ** Decimal numbers *)
Definition is_decimal (c : byte) : Prop := 48 <= Byte.to_N c <= 57.
Lemma decimal_digit c d : to_digit 10 c = Some d <-> is_decimal c /\ d = Byte.to_N c - 48.
Proof.
  unfold to_digit, is_hex, is_decimal. change (Byte.to_N c) with (b2n c).
  destruct (N.leb_spec 48 (b2n c)), (N.leb_spec (b2n c) 57); cbn [andb].
  - destruct (N.ltb_spec (b2n c - 48) 10); [|lia]. split; [intros X; injection X as <-; lia|intros [_ ->]; reflexivity].
  - destruct (N.leb_spec 97 (b2n c)), (N.leb_spec (b2n c) 102), (N.leb_spec 65 (b2n c)), (N.leb_spec (b2n c) 70); cbn [andb];
      try match goal with |- context [?a <? 10] => destruct (N.ltb_spec a 10) end; (split; [discriminate || lia|lia]).
  - destruct (N.leb_spec 97 (b2n c)), (N.leb_spec (b2n c) 102), (N.leb_spec 65 (b2n c)), (N.leb_spec (b2n c) 70); cbn [andb];
      try match goal with |- context [?a <? 10] => destruct (N.ltb_spec a 10) end; (split; [discriminate || lia|lia]).
  - destruct (N.leb_spec 97 (b2n c)), (N.leb_spec (b2n c) 102), (N.leb_spec 65 (b2n c)), (N.leb_spec (b2n c) 70); cbn [andb];
      try match goal with |- context [?a <? 10] => destruct (N.ltb_spec a 10) end; (split; [discriminate || lia|lia]).
Qed.
Definition step (acc : N) (c : byte) : N := 10 * acc + (Byte.to_N c - 48).
Lemma fold_step_ge s : forall acc, acc <= fold_left step s acc.
Proof. induction s as [|c s IH]; intros acc; cbn [fold_left]; [lia|]. specialize (IH (step acc c)). unfold step in *. lia. Qed.
Lemma radix_decimal L s : forall acc n, acc < L ->
  (radix_digits 10 L acc s = Some n <-> Forall is_decimal s /\ fold_left step s acc = n /\ n < L).
Proof.
  induction s as [|c s IH]; intros acc n H; cbn [radix_digits fold_left].
  - split; [intros X; injection X as <-; auto|intros (_ & -> & _); reflexivity].
  - destruct (to_digit 10 c) as [d|] eqn:D.
    + apply decimal_digit in D as [D ->]. replace (acc * 10 + (Byte.to_N c - 48)) with (step acc c) by (unfold step; lia).
      destruct (N.ltb_spec (step acc c) L) as [S|S].
      * rewrite (IH _ n S). split; [intros (A & B & C)|intros (A & B & C); inversion A]; auto.
      * split; [discriminate|]. intros (_ & <- & C). pose proof (fold_step_ge s (step acc c)). lia.
    + split; [discriminate|]. intros (A & _). inversion A; subst.
      pose proof (proj2 (decimal_digit c _) (conj H2 eq_refl)). congruence.
Qed.
Lemma parse_usize s n : from_str_radix 10 (2 ^ 64) s = Some n <->
  exists t, (s = t \/ s = "+"%byte :: t) /\ t <> [] /\ Forall (fun c => 48 <= Byte.to_N c <= 57) t /\ decimal_value t = n /\ n < 2 ^ 64.
Proof.
  split.
  - destruct s as [|c r]; cbn [from_str_radix]; [discriminate|]. destruct (N.eqb_spec (b2n c) 43) as [E|E].
    + destruct r as [|d r]; [discriminate|]. intros H. apply radix_decimal in H as (A & B & C); [|reflexivity].
      exists (d :: r). split; [right; rewrite (byte_is _ _ E); reflexivity|]. repeat split; try assumption. discriminate.
    + intros H. apply radix_decimal in H as (A & B & C); [|reflexivity].
      exists (c :: r). repeat split; auto; discriminate.
  - intros (t & [-> | ->] & N & F & V & L).
    + destruct t as [|c r]; [congruence|]. cbn [from_str_radix]. destruct (N.eqb_spec (b2n c) 43) as [E|E].
      * inversion F; subst. change (Byte.to_N c) with (b2n c) in *. lia.
      * apply radix_decimal; [reflexivity|]. auto.
    + cbn [from_str_radix]. change (b2n "+"%byte =? 43) with true. cbv iota. destruct t as [|c r]; [congruence|].
      apply radix_decimal; [reflexivity|]. auto.
Qed.
Lemma decimal_value_snoc s c : decimal_value (s ++ [c]) = 10 * decimal_value s + (Byte.to_N c - 48).
Proof. unfold decimal_value. rewrite fold_left_app. reflexivity. Qed.
Lemma decimal_shown k : forall n, n < 10 ^ N.of_nat (S k) -> decimal_text (decimal (S k) n) n.
Proof.
  assert (Last : forall n, Byte.to_N (n2b (48 + n mod 10)) = 48 + n mod 10).
  { intros n. change (Byte.to_N (n2b (48 + n mod 10))) with (b2n (n2b (48 + n mod 10))). rewrite b2n_n2b. apply N.mod_small.
    pose proof (N.mod_lt n 10 ltac:(discriminate)). lia. }
  assert (One : forall n, n < 10 -> decimal_text [n2b (48 + n mod 10)] n).
  { intros n H. split; [discriminate|]. split.
    - repeat constructor; rewrite Last; pose proof (N.mod_lt n 10 ltac:(discriminate)); lia.
    - split; [unfold decimal_value; cbn [fold_left]; rewrite Last, N.mod_small by assumption; lia|]. cbn [hd]. intros ->. reflexivity. }
  induction k; intros n H.
  - cbn [decimal]. change (10 ^ N.of_nat 1) with 10 in H. rewrite (proj2 (N.ltb_lt n 10) H). apply One, H.
  - change (decimal (S (S k)) n) with ((if n <? 10 then [] else decimal (S k) (n / 10)) ++ [n2b (48 + n mod 10)]).
    destruct (N.ltb_spec n 10) as [S|S]; [apply One, S|].
    assert (B : n / 10 < 10 ^ N.of_nat (Datatypes.S k)).
    { apply N.div_lt_upper_bound; [discriminate|]. rewrite <- N.pow_succ_r by lia. replace (N.succ (N.of_nat (Datatypes.S k))) with (N.of_nat (Datatypes.S (Datatypes.S k))) by lia. exact H. }
    destruct (IHk _ B) as (A1 & A2 & A3 & A4). remember (decimal (Datatypes.S k) (n / 10)) as s eqn:Es. clear Es. split; [destruct s; discriminate|]. split.
    + apply Forall_app. split; [exact A2|]. repeat constructor; rewrite Last; pose proof (N.mod_lt n 10 ltac:(discriminate)); lia.
    + split.
      * rewrite decimal_value_snoc, A3, Last. pose proof (N.div_mod n 10 ltac:(discriminate)). lia.
      * destruct s as [|c s]; [congruence|]. cbn [app hd] in *. intros ->. specialize (A4 eq_refl).
        injection A4 as ->. unfold decimal_value in A3. cbn in A3. lia.
Qed.
Lemma show_usize_text n : n < 2 ^ 64 -> decimal_text (show_usize n) n.
Proof. intros H. apply decimal_shown. cbn. lia. Qed.
Lemma usize_round_trip n : n < 2 ^ 64 -> from_str_radix 10 (2 ^ 64) (show_usize n) = Some n.
Proof.
  intros H. destruct (show_usize_text n H) as (A & B & C & _). apply parse_usize. exists (show_usize n). auto.
Qed.

(** ** Network addresses *)
Lemma contains_iff c s : contains c s = true <-> In c s.
Proof.
  unfold contains. rewrite existsb_exists. split.
  - intros (x & A & B). apply byte_eqb_eq in B as ->. exact A.
  - intros H. exists c. split; [exact H|apply byte_eqb_eq; reflexivity].
Qed.
Lemma contains_not c s : contains c s = false <-> ~ In c s.
Proof. rewrite <- contains_iff. destruct (contains c s); split; congruence. Qed.
Lemma hex_no_colon g b : spells hex_digit g [b] -> filter (Byte.eqb COLON) g = [] /\ exists c d, g = [c; d] /\ c <> COLON /\ d <> COLON.
Proof.
  intros H. destruct g as [|h [|k v]]; try contradiction. destruct H as [(x & y & A & B & _) H]. destruct v; [|destruct v; contradiction].
  assert (h <> COLON) by (intros ->; eapply colon_no_hex, A). assert (k <> COLON) by (intros ->; eapply colon_no_hex, B).
  cbn [filter]. rewrite (proj2 (byte_eqb_neq COLON h)), (proj2 (byte_eqb_neq COLON k)) by congruence.
  split; [reflexivity|]. exists h, k. auto.
Qed.
Lemma mac_text_colons gs m : Forall2 (fun g b => spells hex_digit g [b]) gs m -> S (colons (joined COLON gs)) = Nat.max 1 (length gs).
Proof.
  unfold colons. change ":"%byte with COLON. induction 1 as [|g b gs m H F IH]; [reflexivity|].
  destruct (hex_no_colon _ _ H) as [E _]. destruct gs as [|g' gs]; [cbn [joined]; rewrite E; reflexivity|].
  rewrite joined_cons by discriminate. rewrite filter_app, E. cbn [app filter]. rewrite (proj2 (byte_eqb_eq COLON COLON) eq_refl).
  cbn [length] in *. lia.
Qed.
Lemma occurs_cons_inv n x r i : occurs_at n (x :: r) i -> (exists post, x :: r = n ++ post) \/ exists j, i = S j /\ occurs_at n r j.
Proof.
  intros (pre & post & E & L). destruct pre as [|y pre]; [left; exists post; exact E|]. right. exists (length pre). split; [auto|].
  exists pre, post. split; [cbn in E; congruence|reflexivity].
Qed.
Lemma mac_text_single gs m : Forall2 (fun g b => spells hex_digit g [b]) gs m -> forall i, ~ occurs_at [COLON; COLON] (joined COLON gs) i.
Proof.
  assert (Short : forall c d i, c <> COLON -> ~ occurs_at [COLON; COLON] [c; d] i).
  { intros c d i Hc (pre & post & E & _). destruct pre as [|x [|y [|z pre]]]; cbn in E; try congruence. }
  induction 1 as [|g b gs m H F IH]; intros i.
  - intros (pre & post & E & _). destruct pre; discriminate.
  - destruct (hex_no_colon _ _ H) as [_ (c & d & -> & Hc & Hd)]. destruct gs as [|g' gs]; [exact (Short c d i Hc)|].
    rewrite joined_cons by discriminate. cbn [app]. intros X.
    apply occurs_cons_inv in X as [(post & E)|(j & -> & X)].
    { cbn in E. congruence. }
    apply occurs_cons_inv in X as [(post & E)|(k & -> & X)].
    { cbn in E. congruence. }
    apply occurs_cons_inv in X as [(post & E)|(l & -> & X)]; [|eapply IH, X].
    cbn [app] in E. injection E as E.
    inversion F as [|? ? ? ? G F']; subst. destruct (hex_no_colon _ _ G) as [_ (c' & d' & -> & Hc' & _)].
    destruct gs; [cbn in E; congruence|]. cbn in E. congruence.
Qed.
Lemma decimal_no_punct s n c : decimal_text s n -> Byte.to_N c < 48 \/ 57 < Byte.to_N c -> ~ In c s.
Proof.
  intros (_ & F & _) H X. rewrite Forall_forall in F. specialize (F c X). cbn beta in F. lia.
Qed.
Lemma net_round_trip ip a : ip_standard ip -> net_value a -> net_from_str ip (net_display ip a) = Some a.
Proof.
  intros (P4 & P6 & PN) HV. unfold net_from_str. destruct a as [l|l|m|n]; cbn [net_value net_display] in *.
  - destruct (P4 l HV) as (E & D & C). rewrite (proj2 (contains_not COLON _) C), (proj2 (contains_iff DOT _) D), E. reflexivity.
  - destruct (P6 l HV) as (E & C). rewrite (proj2 (contains_iff COLON _) C), E. reflexivity.
  - rewrite (mac_round_trip m HV). destruct (mac_displayed m HV) as (gs & E & L & F).
    assert (C : In COLON (mac_display m)).
    { rewrite E. destruct gs as [|g [|g' gs]]; try discriminate L. rewrite joined_cons by discriminate.
      apply in_or_app. right. left. reflexivity. }
    rewrite (proj2 (contains_iff COLON _) C). rewrite PN; [reflexivity|..].
    + rewrite E. apply mac_text_colons in F. change ":"%byte with COLON. rewrite L in F. lia.
    + intros i. rewrite E. apply (mac_text_single gs m F).
  - pose proof (show_usize_text n HV) as T.
    rewrite (proj2 (contains_not COLON _)) by (eapply decimal_no_punct; [exact T|vm_compute; right; reflexivity]).
    rewrite (proj2 (contains_not DOT _)) by (eapply decimal_no_punct; [exact T|vm_compute; left; reflexivity]).
    rewrite usize_round_trip by exact HV. reflexivity.
Qed.

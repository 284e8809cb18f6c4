(** Proofs about Text.v. *)
From Verif Require Import Base Ints Spec SpecOps Reader Writer BaseLemmas ReaderLemmas WriterLemmas Utf8 Utf8Spec Utf8Lemmas.
From Verif Require Import Text TextSpec.

(** ** Digits *)
Definition below16 (P : N -> Prop) : Prop :=
  P 0 /\ P 1 /\ P 2 /\ P 3 /\ P 4 /\ P 5 /\ P 6 /\ P 7 /\ P 8 /\ P 9 /\ P 10 /\ P 11 /\ P 12 /\ P 13 /\ P 14 /\ P 15.
Lemma below16_all P : below16 P -> forall d, d < 16 -> P d.
Proof.
  unfold below16. intros H d Hd. repeat destruct H as [? H].
  destruct d as [|[[[[]|[]|]|[[]|[]|]|]|[[[]|[]|]|[[]|[]|]|]|]]; try assumption; exfalso; lia.
Qed.
Lemma is_hex_digit c d : is_hex c = Some d -> hex_digit c d.
Proof.
  unfold is_hex, hex_digit, lower_digit, upper_digit.
  destruct (N.leb_spec 48 (b2n c)), (N.leb_spec (b2n c) 57), (N.leb_spec 97 (b2n c)), (N.leb_spec (b2n c) 102),
    (N.leb_spec 65 (b2n c)), (N.leb_spec (b2n c) 70); cbn [andb]; intros X; try discriminate X; injection X as <-; try lia;
    solve [left; left; split; [lia|apply byte_is; lia] | left; right; split; [lia|apply byte_is; lia] | right; right; split; [lia|apply byte_is; lia]].
Qed.
Lemma lower_digit_lt c d : lower_digit c d -> d < 16. Proof. unfold lower_digit; lia. Qed.
Lemma hex_digit_lt c d : hex_digit c d -> d < 16. Proof. unfold hex_digit, lower_digit, upper_digit; lia. Qed.
Lemma digit_is_hex c d : hex_digit c d -> is_hex c = Some d.
Proof.
  intros H. pose proof (hex_digit_lt _ _ H) as L. revert H. pattern d. revert d L. apply below16_all.
  unfold below16. repeat split; intros [[[? ->]|[? ->]]|[[? ->]|[? ->]]]; try lia; reflexivity.
Qed.
Lemma is_hex_iff c d : is_hex c = Some d <-> hex_digit c d.
Proof. split; [apply is_hex_digit|apply digit_is_hex]. Qed.
Lemma is_hex_none c : is_hex c = None <-> forall d, ~ hex_digit c d.
Proof.
  split.
  - intros E d H. apply digit_is_hex in H. congruence.
  - intros H. destruct (is_hex c) as [d|] eqn:E; [|reflexivity]. apply is_hex_digit in E. destruct (H d E).
Qed.
Lemma hex_digit_fun c d d' : hex_digit c d -> hex_digit c d' -> d = d'.
Proof. intros H H'. apply digit_is_hex in H, H'. congruence. Qed.

Lemma table_lower d : d < 16 -> lower_digit (nth (N.to_nat d) HEX_LOWER x00) d.
Proof. revert d. apply below16_all. unfold below16, lower_digit. repeat split; vm_compute; solve [left; split; reflexivity | right; split; [split; [discriminate|reflexivity]|reflexivity]]. Qed.
Lemma table_upper d : d < 16 -> upper_digit (nth (N.to_nat d) HEX_UPPER x00) d.
Proof. revert d. apply below16_all. unfold below16, upper_digit. repeat split; vm_compute; solve [left; split; reflexivity | right; split; [split; [discriminate|reflexivity]|reflexivity]]. Qed.

Lemma nibbles v : N.shiftr (b2n v) 4 < 16 /\ N.land (b2n v) 15 < 16 /\ b2n v = 16 * N.shiftr (b2n v) 4 + N.land (b2n v) 15.
Proof. destruct v; vm_compute; repeat split; reflexivity. Qed.
Lemma glue x y : x < 16 -> y < 16 -> N.lor (N.shiftl x 4) y = 16 * x + y.
Proof.
  intros Hx. revert y. pattern x. revert x Hx. apply below16_all.
  unfold below16. repeat split; apply below16_all; unfold below16; repeat split; reflexivity.
Qed.

Lemma to_hex_spells table (digit : byte -> N -> Prop) l : (forall d, d < 16 -> digit (nth (N.to_nat d) table x00) d) ->
  spells digit (to_hex table l) l.
Proof.
  intros H. induction l as [|b l IH]; [exact I|]. cbn [to_hex spells]. split; [|exact IH].
  destruct (nibbles b) as (A & B & C). exists (N.shiftr (b2n b) 4), (N.land (b2n b) 15).
  split; [apply H, A|]. split; [apply H, B|exact C].
Qed.
Lemma lowercase_spells l : spells lower_digit (to_hex_lowercase l) l.
Proof. apply to_hex_spells, table_lower. Qed.
Lemma uppercase_spells l : spells upper_digit (to_hex_uppercase l) l.
Proof. apply to_hex_spells, table_upper. Qed.
Lemma spells_hex (digit : byte -> N -> Prop) : (forall c d, digit c d -> hex_digit c d) ->
  forall s l, spells digit s l -> spells hex_digit s l.
Proof.
  intros H. assert (X : forall n s l, (length s <= n)%nat -> spells digit s l -> spells hex_digit s l).
  { induction n; intros s l Hn.
    - destruct s; [auto|cbn in Hn; lia].
    - destruct s as [|h [|k s]], l as [|b l]; auto. intros [(x & y & A & B & C) D]. split.
      + exists x, y. auto.
      + apply IHn; [cbn in Hn; lia|exact D]. }
  intros s l. apply (X (length s)); lia.
Qed.

(** ** Hex strings *)
Lemma pairs_ind (P : list byte -> Prop) : P [] -> (forall a, P [a]) -> (forall a b s, P s -> P (a :: b :: s)) -> forall s : list byte, P s.
Proof.
  intros H0 H1 H2. fix go 1. intros [|a [|b s]]; [exact H0|apply H1|apply H2, go].
Qed.
Lemma chunks_spells (s : list byte) : forall l, hex_chunks s = Parsed l <-> spells hex_digit s l.
Proof.
  induction s as [|a|a b s IH] using pairs_ind; intros l.
  - cbn. destruct l; split; auto; try discriminate. contradiction.
  - cbn. destruct (is_hex a), l; split; (discriminate || contradiction).
  - cbn [hex_chunks]. destruct (is_hex a) as [x|] eqn:A.
    2:{ split; [discriminate|]. destruct l; [contradiction|]. intros [(x & y & H & _) _]. apply digit_is_hex in H. congruence. }
    destruct (is_hex b) as [y|] eqn:B.
    2:{ split; [discriminate|]. destruct l; [contradiction|]. intros [(x' & y & _ & H & _) _]. apply digit_is_hex in H. congruence. }
    apply is_hex_digit in A, B. pose proof (hex_digit_lt _ _ A). pose proof (hex_digit_lt _ _ B).
    rewrite glue by assumption. destruct (hex_chunks s) as [l'| |].
    + split.
      * intros E. injection E as <-. split.
        -- exists x, y. repeat split; auto. change (b2n (n2b (16 * x + y)) = 16 * x + y). rewrite b2n_n2b. apply N.mod_small. lia.
        -- apply IH. reflexivity.
      * destruct l as [|c l]; [contradiction|]. intros [(x' & y' & A' & B' & C) D]. apply IH in D. injection D as ->.
        f_equal. f_equal. rewrite (hex_digit_fun _ _ _ A A'), (hex_digit_fun _ _ _ B B'), <- C. apply n2b_b2n.
    + split; [discriminate|]. destruct l as [|c l]; [contradiction|]. intros [_ D]. apply IH in D. discriminate.
    + split; [discriminate|]. destruct l as [|c l]; [contradiction|]. intros [_ D]. apply IH in D. discriminate.
Qed.
Lemma spells_even (digit : byte -> N -> Prop) (s : list byte) : forall l, spells digit s l -> lenN s mod 2 = 0.
Proof.
  induction s as [|a|a b s IH] using pairs_ind; intros l H.
  - reflexivity.
  - destruct l; contradiction.
  - destruct l as [|c l]; [contradiction|]. destruct H as [_ H]. apply IH in H. rewrite !lenN_cons. lia.
Qed.
Lemma hex_parsed s l : hex_from_str s = Parsed l <-> spells hex_digit s l.
Proof.
  unfold hex_from_str. destruct (N.eqb_spec (lenN s mod 2) 0) as [E|E]; cbn [negb].
  - apply chunks_spells.
  - split; [discriminate|]. intros H. apply spells_even in H. congruence.
Qed.
Lemma chunks_no_panic (s : list byte) : lenN s mod 2 = 0 -> hex_chunks s <> ParsePanic.
Proof.
  induction s as [|a|a b s IH] using pairs_ind; intros H.
  - discriminate.
  - discriminate.
  - cbn [hex_chunks]. destruct (is_hex a); [|discriminate]. destruct (is_hex b); [|discriminate].
    rewrite !lenN_cons in H. specialize (IH ltac:(lia)). destruct (hex_chunks s); (discriminate || congruence).
Qed.
Lemma hex_no_panic s : hex_from_str s <> ParsePanic.
Proof.
  unfold hex_from_str. destruct (N.eqb_spec (lenN s mod 2) 0) as [E|E]; cbn [negb]; [apply chunks_no_panic, E|discriminate].
Qed.
Lemma spells_exists (s : list byte) : Nat.Even (length s) -> Forall (fun c => exists d, hex_digit c d) s -> exists l, spells hex_digit s l.
Proof.
  induction s as [|a|a b s IH] using pairs_ind; intros E F.
  - exists []. exact I.
  - destruct E as [k E]. cbn in E. lia.
  - apply Forall_cons_iff in F as [[x A] F]. apply Forall_cons_iff in F as [[y B] F].
    destruct IH as [l H]; [destruct E as [k E]; exists (k - 1)%nat; cbn in E; lia|exact F|].
    exists (n2b (16 * x + y) :: l). split; [|exact H]. exists x, y. repeat split; auto.
    change (b2n (n2b (16 * x + y)) = 16 * x + y). rewrite b2n_n2b. apply hex_digit_lt in A, B. apply N.mod_small. lia.
Qed.
Lemma spells_digits (s : list byte) : forall l, spells hex_digit s l -> Nat.Even (length s) /\ Forall (fun c => exists d, hex_digit c d) s.
Proof.
  induction s as [|a|a b s IH] using pairs_ind; intros l H.
  - split; [exists 0%nat; reflexivity|constructor].
  - destruct l; contradiction.
  - destruct l as [|c l]; [contradiction|]. destruct H as [(x & y & A & B & _) H]. apply IH in H as [[k E] F].
    split; [exists (S k); cbn; lia|]. constructor; [eauto|]. constructor; eauto.
Qed.
Lemma hex_accepts s : (exists l, hex_from_str s = Parsed l) <->
  Nat.Even (length s) /\ Forall (fun c => exists d, hex_digit c d) s.
Proof.
  split.
  - intros [l H]. apply hex_parsed in H. eapply spells_digits, H.
  - intros [E F]. destruct (spells_exists s E F) as [l H]. exists l. apply hex_parsed, H.
Qed.
Lemma hex_rejects s : ~ (Nat.Even (length s) /\ Forall (fun c => exists d, hex_digit c d) s) -> hex_from_str s = Rejected.
Proof.
  intros H. destruct (hex_from_str s) as [l| |] eqn:E; [|reflexivity|destruct (hex_no_panic s E)].
  destruct H. apply hex_accepts. eauto.
Qed.
Lemma hex_lower_back l : hex_from_str (to_hex_lowercase l) = Parsed l.
Proof. apply hex_parsed. eapply spells_hex; [|apply lowercase_spells]. intros; left; assumption. Qed.
Lemma hex_upper_back l : hex_from_str (to_hex_uppercase l) = Parsed l.
Proof. apply hex_parsed. eapply spells_hex; [|apply uppercase_spells]. intros; right; assumption. Qed.

(** *** Lossy display *)
Lemma lossy_id l : utf8_ok l = true -> from_utf8_lossy l = l.
Proof.
  assert (X : forall n l, (length l <= n)%nat -> utf8_ok l = true -> from_utf8_lossy l = l).
  { induction n; intros k Hn; [destruct k; [reflexivity|cbn in Hn; lia]|].
    destruct k as [|b r]; [reflexivity|]. cbn [length] in Hn. cbn [utf8_ok from_utf8_lossy].
    destruct (utf8_char_width b) as [|[|[|[|[|w]]]]]; try discriminate.
    - intros H. rewrite IHn by (assumption || lia). reflexivity.
    - destruct r as [|c r]; [discriminate|]. cbn [length] in Hn. intros H. apply andb_true_iff in H as [-> H].
      rewrite IHn by (assumption || lia). reflexivity.
    - destruct r as [|c [|d r]]; try discriminate. cbn [length] in Hn. intros H. apply andb_true_iff in H as [H H'].
      apply andb_true_iff in H as [-> ->]. rewrite IHn by (assumption || lia). reflexivity.
    - destruct r as [|c [|d [|e r]]]; try discriminate. cbn [length] in Hn. intros H. apply andb_true_iff in H as [H H'].
      apply andb_true_iff in H as [H ->]. apply andb_true_iff in H as [-> ->]. rewrite IHn by (assumption || lia). reflexivity. }
  apply (X (length l)). lia.
Qed.
Lemma replacement_ok r : utf8_ok (REPLACEMENT ++ r) = utf8_ok r.
Proof. exact (utf8_ok_char 0xFFFD r ltac:(unfold scalar; lia)). Qed.
Lemma lossy_ok l : utf8_ok (from_utf8_lossy l) = true.
Proof.
  assert (X : forall n l, (length l <= n)%nat -> utf8_ok (from_utf8_lossy l) = true).
  { induction n; intros k Hn; [destruct k; [reflexivity|cbn in Hn; lia]|].
    destruct k as [|b r]; [reflexivity|]. cbn [length] in Hn. cbn [from_utf8_lossy].
    assert (R : utf8_ok REPLACEMENT = true) by (rewrite <- (app_nil_r REPLACEMENT), replacement_ok; reflexivity).
    destruct (utf8_char_width b) as [|[|[|[|[|w]]]]] eqn:W;
      repeat first [ rewrite replacement_ok; apply IHn; cbn [length] in Hn |- *; lia
                   | exact R
                   | match goal with |- context [match ?r with [] => _ | _ :: _ => _ end] => is_var r; destruct r; cbn [length] in Hn end
                   | match goal with |- context [if ?c then _ else _] => destruct c eqn:? end ];
      cbn [utf8_ok]; rewrite W; repeat match goal with H : _ = true |- _ => rewrite H; clear H end;
      cbn [andb]; apply IHn; cbn [length] in *; lia. }
  apply (X (length l)). lia.
Qed.
Lemma lossy_text l : text (from_utf8_lossy l).
Proof. apply utf8_ok_text, lossy_ok. Qed.
Lemma lossy_same l : from_utf8_lossy l = l <-> text l.
Proof.
  split.
  - intros E. rewrite <- E. apply lossy_text.
  - intros H. apply lossy_id, utf8_ok_text, H.
Qed.
Lemma hex_text_back l : text l -> hex_decode (hex_encode l) = Parsed l.
Proof.
  intros H. unfold hex_decode, hex_encode. rewrite hex_lower_back. unfold hexstring_display. f_equal. apply lossy_same, H.
Qed.

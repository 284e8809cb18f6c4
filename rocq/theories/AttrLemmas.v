(** Proofs about AttrParse.v. *)
From Coq Require Import Ascii String Permutation.
From Verif Require Import Base Ints Spec SpecOps Reader Writer BaseLemmas ReaderLemmas WriterLemmas Utf8Spec Utf8Lemmas.
From Verif Require Import Text TextSpec TextLemmas MacLemmas NetLemmas Sugar AttrParse AttrSpec Schema.
Close Scope string_scope.

(** ** Literals *)
Lemma quote_byte : byte_of 34 = QUOTE. Proof. reflexivity. Qed.
Lemma unescape_two c d r : unescape_quotes (c :: d :: r) =
  if Byte.eqb c BACKSLASH && Byte.eqb d QUOTE then QUOTE :: unescape_quotes r else c :: unescape_quotes (d :: r).
Proof. reflexivity. Qed.
Lemma unescape_plain s : ~ In QUOTE s -> unescape_quotes s = s.
Proof.
  induction s as [|c [|d r] IH]; intros H; [reflexivity..|].
  rewrite unescape_two.
  assert (Byte.eqb d QUOTE = false) as -> by (apply byte_eqb_neq; intros ->; apply H; right; left; reflexivity).
  rewrite andb_false_r, IH; [reflexivity|]. intros X. apply H. right. exact X.
Qed.
Lemma unescape_cons c r : c <> BACKSLASH -> unescape_quotes (c :: r) = c :: unescape_quotes r.
Proof.
  intros H. destruct r as [|d r]; [reflexivity|].
  rewrite unescape_two.
  rewrite (proj2 (byte_eqb_neq c BACKSLASH) H). reflexivity.
Qed.
Lemma unescape_last s : ~ In QUOTE s -> ~ (exists t, s = t ++ [BACKSLASH]) -> unescape_quotes (s ++ [QUOTE]) = s ++ [QUOTE].
Proof.
  induction s as [|c r IH]; intros H L; [reflexivity|]. destruct r as [|d r'].
  - change (unescape_quotes [c; QUOTE] = [c; QUOTE]). rewrite unescape_cons; [reflexivity|]. intros ->. apply L. exists []. reflexivity.
  - assert (E : Byte.eqb d QUOTE = false) by (apply byte_eqb_neq; intros ->; apply H; right; left; reflexivity).
    cbn [app] in *. rewrite unescape_two, E, andb_false_r. f_equal. apply IH.
    + intros X. apply H. right. exact X.
    + intros [t T]. apply L. exists (c :: t). cbn [app]. rewrite <- T. reflexivity.
Qed.
Lemma strip_quoted s : (let q := QUOTE :: s ++ [QUOTE] in
  match q with
  | c :: (_ :: _) as r => if Byte.eqb c QUOTE && Byte.eqb (last r x00) QUOTE then removelast (tl q) else q
  | _ => q
  end) = s.
Proof.
  cbv zeta. destruct (s ++ [QUOTE]) as [|d r] eqn:E; [destruct s; discriminate|]. rewrite <- E.
  rewrite last_last. change (Byte.eqb QUOTE QUOTE) with true. cbn [andb tl]. apply removelast_last.
Qed.
Lemma unescape_escaped s : ~ In BACKSLASH s -> unescape_quotes (escaped s ++ [QUOTE]) = s ++ [QUOTE].
Proof.
  induction s as [|c r IH]; intros H; [reflexivity|]. cbn [escaped]. rewrite quote_byte.
  assert (Hr : ~ In BACKSLASH r) by (intros X; apply H; right; exact X). destruct (Byte.eqb c QUOTE) eqn:E.
  - apply byte_eqb_eq in E as ->. change (unescape_quotes (BACKSLASH :: QUOTE :: escaped r ++ [QUOTE]) = QUOTE :: r ++ [QUOTE]).
    change (unescape_quotes (BACKSLASH :: QUOTE :: escaped r ++ [QUOTE])) with (QUOTE :: unescape_quotes (escaped r ++ [QUOTE])).
    rewrite (IH Hr). reflexivity.
  - change ((c :: escaped r) ++ [QUOTE]) with (c :: escaped r ++ [QUOTE]). rewrite unescape_cons.
    + rewrite (IH Hr). reflexivity.
    + intros ->. apply H. left. reflexivity.
Qed.
Lemma read_string lit s : string_literal lit s -> parse_value_string lit = s.
Proof.
  intros [-> H]. unfold parse_value_string, quoted. rewrite quote_byte.
  change ([QUOTE] ++ escaped s ++ [QUOTE]) with (QUOTE :: escaped s ++ [QUOTE]). rewrite unescape_cons by discriminate.
  rewrite (unescape_escaped s H). apply strip_quoted.
Qed.
Lemma escaped_plain s : no_quotes s -> escaped s = s.
Proof.
  induction s as [|c r IH]; intros H; [reflexivity|]. cbn [escaped]. rewrite quote_byte.
  assert (Byte.eqb c QUOTE = false) as -> by (apply byte_eqb_neq; intros ->; apply H; left; reflexivity).
  rewrite IH; [reflexivity|]. intros X. apply H. right. exact X.
Qed.
Lemma read_quoted s : no_quotes s -> ~ In BACKSLASH s -> parse_value_string (quoted s) = s.
Proof. intros H B. apply read_string. split; [rewrite (escaped_plain s H); reflexivity|exact B]. Qed.
Lemma read_bare s : no_quotes s -> parse_value_string s = s.
Proof.
  intros H. unfold parse_value_string. rewrite (unescape_plain s H). destruct s as [|c [|d r]]; [reflexivity..|].
  assert (Byte.eqb c QUOTE = false) as -> by (apply byte_eqb_neq; intros ->; apply H; left; reflexivity). reflexivity.
Qed.
Lemma read_byte_string lit : byte_string_literal lit -> parse_value_string lit = lit.
Proof.
  intros (s & -> & H & L). unfold quoted in *. rewrite quote_byte in *. unfold parse_value_string.
  change ([QUOTE] ++ s ++ [QUOTE]) with (QUOTE :: s ++ [QUOTE]) in *.
  rewrite !unescape_cons by discriminate. rewrite unescape_last; [reflexivity|exact H|].
  intros [t ->]. exact (L t eq_refl).
Qed.

(** ** Numbers *)
Lemma to_digit_iff base c d : base <= 16 -> (to_digit base c = Some d <-> hex_digit c d /\ d < base).
Proof.
  intros Hb. unfold to_digit. split.
  - destruct (is_hex c) as [e|] eqn:E; [|discriminate]. destruct (N.ltb_spec e base); [|discriminate].
    intros X. injection X as <-. split; [apply is_hex_iff; exact E|assumption].
  - intros [H L]. apply is_hex_iff in H. rewrite H. destruct (N.ltb_spec d base); [reflexivity|lia].
Qed.
Lemma radix_snoc base L s c : forall acc, radix_digits base L acc (s ++ [c]) =
  match radix_digits base L acc s with
  | Some m => match to_digit base c with
              | Some d => let n := m * base + d in if n <? L then Some n else None
              | None => None
              end
  | None => None
  end.
Proof.
  induction s as [|x s IH]; intros acc; cbn [app radix_digits].
  - destruct (to_digit base c); [|reflexivity]. cbv zeta. destruct (_ <? L); reflexivity.
  - destruct (to_digit base x); [|reflexivity]. cbv zeta. destruct (_ <? L); [apply IH|reflexivity].
Qed.
Lemma written_nonempty base s n : written_in base s n -> s <> [].
Proof. intros H. destruct H; [discriminate|]. destruct s; discriminate. Qed.
Lemma written_radix base L s : 0 < base <= 16 -> forall n, s <> [] ->
  (radix_digits base L 0 s = Some n <-> written_in base s n /\ n < L).
Proof.
  intros Hb. induction s as [|c s IH] using rev_ind; intros n H; [congruence|]. rewrite radix_snoc.
  destruct s as [|x s].
  - cbn [radix_digits app]. destruct (to_digit base c) as [d|] eqn:E.
    + apply to_digit_iff in E as [D B]; [|lia]. cbv zeta. rewrite N.mul_0_l, N.add_0_l. destruct (N.ltb_spec d L) as [Q|Q].
      * split; [intros X; injection X as <-; split; [constructor; assumption|assumption]|].
        intros [W _]. inversion W as [c' d' D' B' Ec|s' n' c' d' W' D' B' Ec]; subst.
        -- f_equal. exact (hex_digit_fun _ _ _ D D').
        -- destruct s' as [|y s']; [destruct (written_nonempty _ _ _ W' eq_refl)|destruct s'; discriminate].
      * split; [discriminate|]. intros [W Q']. inversion W as [c' d' D' B' Ec|s' n' c' d' W' D' B' Ec]; subst.
        -- assert (n = d) by exact (hex_digit_fun _ _ _ D' D). lia.
        -- destruct s' as [|y s']; [destruct (written_nonempty _ _ _ W' eq_refl)|destruct s'; discriminate].
    + split; [discriminate|]. intros [W _]. exfalso.
      assert (exists d, hex_digit c d /\ d < base) as [d Hd].
      { inversion W as [c' d' D' B' Ec|s' n' c' d' W' D' B' Ec]; subst; [eauto|].
        destruct s' as [|y s']; [destruct (written_nonempty _ _ _ W' eq_refl)|destruct s'; discriminate]. }
      apply to_digit_iff in Hd; [congruence|lia].
  - remember (x :: s) as u eqn:Eu. assert (Hu : u <> []) by (subst; discriminate). clear Eu x s.
    assert (Inv : forall n, written_in base (u ++ [c]) n ->
              exists m d, written_in base u m /\ hex_digit c d /\ d < base /\ n = base * m + d).
    { intros n0 W. inversion W as [c' d' D' B' Ec|s' n' c' d' W' D' B' Ec]; subst.
      - destruct u as [|y u]; [congruence|destruct u; discriminate].
      - apply app_inj_tail in Ec as [-> ->]. exists n', d'. auto. }
    split.
    + case_eq (radix_digits base L 0 u); [|discriminate]. intros m E. apply (IH m Hu) in E as [W Q].
      destruct (to_digit base c) as [d|] eqn:E; [|discriminate]. apply to_digit_iff in E as [D B]; [|lia]. cbv zeta.
      destruct (N.ltb_spec (m * base + d) L); [|discriminate]. intros X. injection X as <-. split; [|assumption].
      rewrite (N.mul_comm m base). constructor; assumption.
    + intros [W Q]. apply Inv in W as (m & d & W & D & B & ->).
      assert (Hm : m < L) by nia. rewrite (proj2 (IH m Hu) (conj W Hm)).
      rewrite (proj2 (to_digit_iff base c d ltac:(lia)) (conj D B)). cbv zeta. rewrite (N.mul_comm m base).
      destruct (N.ltb_spec (base * m + d) L); [reflexivity|lia].
Qed.
Lemma digit_char c d : hex_digit c d -> c <> "x"%byte /\ c <> "+"%byte /\ c <> QUOTE /\ c <> BACKSLASH.
Proof. intros H. apply digit_is_hex in H. repeat split; intros ->; discriminate. Qed.
Lemma written_chars base s n : written_in base s n -> Forall (fun c => exists d, hex_digit c d /\ d < base) s.
Proof. intros H. induction H; [repeat constructor; eauto|]. apply Forall_app. split; [assumption|]. repeat constructor; eauto. Qed.
Lemma starts_0x s : starts_with (txt "0x") s = true <-> exists r, s = "0"%byte :: "x"%byte :: r.
Proof.
  split.
  - change (txt "0x") with ["0"%byte; "x"%byte]. destruct s as [|a [|b r]]; cbn [starts_with];
      [discriminate|rewrite andb_false_r; discriminate|].
    intros H. apply andb_true_iff in H as [A H]. apply andb_true_iff in H as [B _].
    apply Byte.byte_dec_bl in A. apply Byte.byte_dec_bl in B. subst. eauto.
  - intros [r ->]. reflexivity.
Qed.
Lemma trim_not s : (forall r, s <> "0"%byte :: "x"%byte :: r) -> trim_0x s = s.
Proof.
  intros H. destruct s as [|a [|b r]]; [reflexivity|destruct a; reflexivity|].
  destruct (Byte.byte_eq_dec a "0"%byte) as [->|Na]; [|destruct a; congruence || reflexivity].
  destruct (Byte.byte_eq_dec b "x"%byte) as [->|Nb]; [destruct (H r eq_refl)|destruct b; congruence || reflexivity].
Qed.
Lemma trim_times k u : (forall r, u <> "0"%byte :: "x"%byte :: r) -> trim_0x (times_0x k ++ u) = u.
Proof. intros H. induction k as [|k IH]; [exact (trim_not u H)|exact IH]. Qed.
Lemma times_trim s : exists k, s = times_0x k ++ trim_0x s /\ (starts_with (txt "0x") s = match k with O => false | S _ => true end).
Proof.
  assert (X : forall n s, (length s <= n)%nat -> exists k, s = times_0x k ++ trim_0x s /\
             (starts_with (txt "0x") s = match k with O => false | S _ => true end)).
  { induction n as [|n IH]; intros u L.
    - destruct u; [|inversion L]. exists O. split; reflexivity.
    - destruct (starts_with (txt "0x") u) eqn:E.
      + apply starts_0x in E as [r ->]. destruct (IH r ltac:(cbn in L; lia)) as (k & K & _). exists (S k).
        split; [|reflexivity]. change (trim_0x ("0"%byte :: "x"%byte :: r)) with (trim_0x r).
        change ("0"%byte :: "x"%byte :: r = "0"%byte :: "x"%byte :: times_0x k ++ trim_0x r). rewrite <- K. reflexivity.
      + exists O. split; [|reflexivity]. rewrite trim_not; [reflexivity|]. intros r ->. discriminate. }
  exact (X (length s) s (le_n _)).
Qed.
Lemma written_not_0x base sign t n : written_in base t n -> sign = [] \/ sign = ["+"%byte] ->
  forall r, sign ++ t <> "0"%byte :: "x"%byte :: r.
Proof.
  intros W [-> | ->] r E; [|discriminate]. cbn [app] in E. apply written_chars in W. rewrite E in W.
  inversion W as [|? ? _ W']; subst. inversion W' as [|? ? (d & D & _) _]; subst.
  destruct (digit_char _ _ D) as [X _]. congruence.
Qed.
Lemma numeral_of_iff s n : numeral_of s = Some n <-> lenient_numeral s n /\ n < 2 ^ 64.
Proof.
  assert (B : forall k, 0 < match k with O => 10 | S _ => 16 end <= 16) by (intros [|k]; lia).
  unfold numeral_of. split.
  - destruct (times_trim s) as (k & K & ->). intros H.
    assert (X : exists sign t, trim_0x s = sign ++ t /\ (sign = [] \/ sign = ["+"%byte]) /\
              t <> [] /\ radix_digits (match k with O => 10 | S _ => 16 end) (2 ^ 64) 0 t = Some n).
    { destruct (trim_0x s) as [|c r]; [destruct k; discriminate|].
      assert (F : from_str_radix (match k with O => 10 | S _ => 16 end) (2 ^ 64) (c :: r) = Some n) by (destruct k; exact H).
      cbn [from_str_radix] in F. destruct (N.eqb_spec (b2n c) 43) as [E|E].
      - destruct r as [|d r]; [discriminate|]. exists ["+"%byte], (d :: r). rewrite (byte_is _ _ E).
        repeat split; auto; discriminate.
      - exists [], (c :: r). repeat split; auto; discriminate. }
    destruct X as (sign & t & T & S & Nt & R). apply (written_radix _ _ _ (B k) n Nt) in R as [W L].
    split; [|exact L]. exists k, sign, t. rewrite K at 1. rewrite T. auto.
  - intros [(k & sign & t & -> & S & W) L].
    rewrite (trim_times k (sign ++ t)) by (eapply written_not_0x; eassumption).
    assert (starts_with (txt "0x") (times_0x k ++ sign ++ t) = match k with O => false | S _ => true end) as ->.
    { destruct k as [|k]; [|reflexivity]. destruct (starts_with _ _) eqn:E; [|reflexivity].
      apply starts_0x in E as [r E]. destruct (written_not_0x _ _ _ _ W S r E). }
    assert (Nt := written_nonempty _ _ _ W).
    assert (R := proj2 (written_radix _ (2 ^ 64) _ (B k) n Nt) (conj W L)).
    replace (if match k with O => false | S _ => true end then 16 else 10) with (match k with O => 10 | S _ => 16 end) by (destruct k; reflexivity).
    apply written_chars in W. destruct t as [|c r]; [congruence|]. destruct S as [-> | ->]; cbn [app from_str_radix].
    + destruct (N.eqb_spec (b2n c) 43) as [E|E]; [|exact R]. inversion W as [|? ? (d & D & _) _]; subst.
      destruct (digit_char _ _ D) as (_ & X & _). rewrite (byte_is _ _ E) in X. destruct (X eq_refl).
    + change (b2n "+"%byte =? 43) with true. cbv iota. exact R.
Qed.
Lemma numeral_lenient s n : numeral s n -> lenient_numeral s n.
Proof.
  intros [W | (t & -> & W)]; [exists O, [], s|exists 1%nat, [], t]; auto.
Qed.
Lemma written_no_quotes base s n : written_in base s n -> no_quotes s /\ ~ In BACKSLASH s.
Proof.
  intros W. apply written_chars in W. rewrite Forall_forall in W.
  split; intros H; destruct (W _ H) as (d & D & _); destruct (digit_char _ _ D) as (_ & _ & X & Y); [exact (X eq_refl)|exact (Y eq_refl)].
Qed.
Lemma numeral_no_quotes s n : numeral s n -> no_quotes s /\ ~ In BACKSLASH s.
Proof.
  intros [W | (t & -> & W)]; apply written_no_quotes in W; [exact W|]. destruct W as [A B].
  split; intros [H|[H|H]]; (discriminate || contradiction).
Qed.
Lemma read_numeral lit s n : lit = s \/ lit = quoted s -> numeral s n -> parse_value_string lit = s.
Proof.
  intros E H. apply numeral_no_quotes in H as [A B]. destruct E as [-> | ->]; [apply read_bare|apply read_quoted]; assumption.
Qed.
Lemma parse_number lit s n : lit = s \/ lit = quoted s -> numeral s n -> n < 2 ^ 64 -> parse_usize lit = AUsize n.
Proof.
  intros E H L. unfold parse_usize. rewrite (read_numeral _ _ _ E H).
  rewrite (proj2 (numeral_of_iff s n)); [reflexivity|]. split; [apply numeral_lenient|]; assumption.
Qed.
Lemma expression_not_number s : expression s -> numeral_of s = None.
Proof.
  intros H. destruct (numeral_of s) as [n|] eqn:E; [|reflexivity]. exfalso.
  apply numeral_of_iff in E as [(k & sign & t & -> & S & W) _]. destruct k as [|k].
  - destruct S as [-> | ->]; cbn [app times_0x] in H; [|destruct H as [_ H]; congruence].
    pose proof (written_nonempty _ _ _ W). apply written_chars in W. destruct t as [|c r]; [congruence|].
    inversion W as [|? ? (d & D & L) _]; subst. apply (proj1 H). revert D. unfold hex_digit, lower_digit, upper_digit.
    intros [[[_ ->]|[X _]]|[[_ ->]|[X _]]]; try lia;
      change (Byte.to_N (byte_of (48 + d))) with (b2n (n2b (48 + d))); rewrite b2n_n2b, N.mod_small by lia; lia.
  - cbn in H. apply (proj1 H). split; discriminate.
Qed.
Lemma parse_expression lit s : string_literal lit s -> expression s -> parse_usize lit = AVar s.
Proof. intros H E. unfold parse_usize. rewrite (read_string _ _ H), (expression_not_number _ E). reflexivity. Qed.
Lemma denoted m lit e : denotes m lit e -> number_code m (Some (Value (parse_usize lit))) = Some e.
Proof.
  intros [lit0 s n E H L|lit0 s H E].
  - rewrite (parse_number _ _ _ E H L). reflexivity.
  - rewrite (parse_expression _ _ H E). reflexivity.
Qed.

(** ** Entries *)
Lemma bytes_eqb_iff a b : bytes_eqb a b = true <-> a = b.
Proof. split; [apply bytes_eqb_eq|intros ->; apply bytes_eqb_refl]. Qed.
Lemma assoc_in {A} k (l : list (string * A)) a : assoc k l = Some a -> exists x, In (x, a) l /\ k = txt x.
Proof.
  induction l as [|[x b] l IH]; cbn [assoc]; [discriminate|]. destruct (bytes_eqb k (txt x)) eqn:E.
  - intros X. injection X as ->. apply bytes_eqb_iff in E. exists x. split; [left; reflexivity|exact E].
  - intros X. destruct (IH X) as (y & I & K). exists y. split; [right; exact I|exact K].
Qed.
Lemma assoc_none {A} k (l : list (string * A)) : assoc k l = None <-> ~ called k (map fst l).
Proof.
  unfold called. induction l as [|[x b] l IH]; cbn [assoc map fst In]; [split; auto|].
  destruct (bytes_eqb k (txt x)) eqn:E.
  - apply bytes_eqb_iff in E. split; [discriminate|]. intros H. destruct H. left. symmetry. exact E.
  - rewrite IH. assert (txt x <> k) by (intros <-; rewrite (proj2 (bytes_eqb_iff _ _) eq_refl) in E; discriminate).
    split; intros H' X; [destruct X as [X|X]; [exact (H X)|exact (H' X)]|apply H'; right; exact X].
Qed.
Lemma entry_known fa e : field_entry fa e = None <-> ~ known e.
Proof.
  destruct e as [i|k lit]; cbn [field_entry known].
  - change ["enum_default"; "branch_default"; "untake"; "bits_start"; "skip"; "skip_encode"; "skip_decode";
            "default"; "default_value"; "from_str"; "remaining"]%string with (map fst field_tags).
    rewrite <- assoc_none. destruct (assoc i field_tags); cbn; split; congruence.
  - match goal with |- _ <-> ~ called k ?l => change l with (map fst field_properties) end.
    rewrite <- assoc_none. destruct (assoc k field_properties) as [[rk s]|]; cbn; split; congruence.
Qed.
Lemma known_dec e : known e \/ ~ known e.
Proof.
  destruct (field_entry default_fields e) eqn:E; [left|right; exact (proj1 (entry_known _ _) E)].
  destruct e as [i|k lit]; cbn [field_entry known] in *.
  - destruct (assoc i field_tags) eqn:A; [|discriminate]. apply assoc_in in A as (x & I & ->).
    change (called (txt x) (map fst field_tags)). unfold called. apply in_map. exact (in_map fst _ _ I).
  - destruct (assoc k field_properties) eqn:A; [|discriminate]. apply assoc_in in A as (x & I & ->).
    change (called (txt x) (map fst field_properties)). unfold called. apply in_map. exact (in_map fst _ _ I).
Qed.
Lemma entries_known l : forall fa, field_entries fa l = None <-> exists e, In e l /\ ~ known e.
Proof.
  induction l as [|e l IH]; intros fa; cbn [field_entries].
  - split; [discriminate|intros (e & [] & _)].
  - destruct (field_entry fa e) as [fa'|] eqn:E.
    + rewrite (IH fa'). split; intros (f & I & K); exists f; (split; [|exact K]); [right; exact I|].
      destruct I as [<-|I]; [|exact I]. apply (entry_known fa) in K. congruence.
    + split; [|reflexivity]. intros _. exists e. split; [left; reflexivity|]. apply (entry_known fa). exact E.
Qed.

(** ** Reading the same list with [is_use] set differently *)
Lemma entry_use b g e fa : field_entry (mkfields b g) e = Some fa -> is_use fa = b /\
  forall b', field_entry (mkfields b' g) e = Some (mkfields b' (member fa)).
Proof.
  destruct e as [i|k lit]; cbn [field_entry].
  - destruct (assoc i field_tags) as [s|]; [|discriminate]. cbn [option_map]. intros X. injection X as <-. split; reflexivity.
  - destruct (assoc k field_properties) as [[rk s]|]; [|discriminate]. cbn [option_map]. intros X. injection X as <-.
    destruct (bytes_eqb k (txt "bits_start")); split; reflexivity.
Qed.
Lemma entries_use l : forall b g fa, field_entries (mkfields b g) l = Some fa -> is_use fa = b /\
  forall b', field_entries (mkfields b' g) l = Some (mkfields b' (member fa)).
Proof.
  induction l as [|e l IH]; intros b g fa; cbn [field_entries].
  - intros X. injection X as <-. split; reflexivity.
  - destruct (field_entry (mkfields b g) e) as [fa1|] eqn:E; [|discriminate].
    apply entry_use in E as [U E]. destruct fa1 as [b1 g1]. cbn [is_use] in U. subst b1. intros H.
    destruct (IH _ _ _ H) as [U H']. split; [exact U|]. intros b'. rewrite (E b'). apply H'.
Qed.
Lemma entries_app l r : forall fa, field_entries fa (l ++ r) =
  match field_entries fa l with Some fa' => field_entries fa' r | None => None end.
Proof. induction l as [|e l IH]; intros fa; cbn [app field_entries]; [reflexivity|]. destruct (field_entry fa e); [apply IH|reflexivity]. Qed.
Definition jbytes_line (l : list entry) : attribute := mkattribute (txt "jbytes") l.
Lemma line_parsed l more : attributes_of (jbytes_line l :: more) =
  field_entries (mkfields (match l with [] => false | _ => true end) (fun _ => None)) l.
Proof.
  unfold attributes_of. cbn [get_attribute]. unfold parse_field_attribute at 1.
  change (t_name (jbytes_line l)) with (txt "jbytes"). change (bytes_eqb (txt "jbytes") (txt "default")) with false.
  change (bytes_eqb (txt "jbytes") (txt "jbytes")) with true. cbv iota. change (t_entries (jbytes_line l)) with l.
  destruct (field_entries _ l); reflexivity.
Qed.
Lemma line_snoc l e fa : attributes_of [jbytes_line l] = Some fa ->
  attributes_of [jbytes_line (l ++ [e])] = field_entry (mkfields true (member fa)) e.
Proof.
  rewrite !line_parsed. intros H. apply entries_use in H as [_ H]. rewrite entries_app.
  assert (match l ++ [e] with [] => false | _ => true end = true) as -> by (destruct l; reflexivity).
  rewrite H. cbn [field_entries]. destruct (field_entry _ e); reflexivity.
Qed.
Lemma called_one {k x} : called k [x] -> k = txt x.
Proof. intros [H|[]]. symmetry. exact H. Qed.
Lemma called_two {k x y} : called k [x; y] -> k = txt x \/ k = txt y.
Proof. intros [H|[H|[]]]; symmetry in H; auto. Qed.
Lemma order_word s bo : called s (match bo with Be => ["BE"; ">"; "0"] | Le => ["LE"; "<"; "1"] end)%string ->
  parse_byteorder (quoted s) = AString s /\ byteorder_parse s = Some bo.
Proof. destruct bo; intros [<-|[<-|[<-|[]]]]; split; reflexivity. Qed.
Lemma order_expression lit s : string_literal lit s -> ~ called s ["BE"; ">"; "0"; "LE"; "<"; "1"]%string ->
  parse_byteorder lit = AVar s.
Proof.
  intros H N. unfold parse_byteorder. rewrite (read_string _ _ H). destruct (existsb _ _) eqn:E; [|reflexivity].
  apply existsb_exists in E as (x & I & E). apply bytes_eqb_iff in E as <-. exfalso. apply N. unfold called.
  change (map list_byte_of_string) with (map txt). cbn [map In] in *. tauto.
Qed.
Lemma list_names m lit names : names <> [] -> Forall (fun x => ~ In ","%byte x) names -> string_literal lit (joined ","%byte names) ->
  match parse_list lit with
  | AList l => flat_map (fun a => match a with AString s => [(m_name m s, m_number m s)] | _ => [] end) l
  | _ => []
  end = map (fun x => (m_name m x, m_number m x)) names.
Proof.
  intros Hn F H. unfold parse_list. rewrite (read_string _ _ H), (split_joined _ _ Hn F). clear.
  induction names as [|x l IH]; [reflexivity|]. cbn [flat_map map]. rewrite flat_map_app, IH.
  destruct (numeral_of x); reflexivity.
Qed.
Lemma entry_says m e g fa : says m e g ->
  exists fa', field_entry (mkfields true (member fa)) e = Some fa' /\ field_spec m fa' = g (field_spec m fa).
Proof.
  intros H. destruct H;
    repeat match goal with
    | K : called _ [_] |- _ => apply called_one in K; subst
    | K : called ?k [_; _] |- _ => apply called_two in K as [-> | ->]
    end;
    eexists; (split; [reflexivity|]);
    repeat match goal with |- context [bytes_eqb (txt ?a) (txt ?b)] =>
      let r := eval vm_compute in (bytes_eqb (txt a) (txt b)) in change (bytes_eqb (txt a) (txt b)) with r
    end;
    unfold field_spec; cbn [put is_use member slot_beq read_literal];
    repeat match goal with
    | D : denotes _ _ _ |- _ => rewrite (denoted _ _ _ D); clear D
    | E : _ = ?s \/ _ = quoted ?s, X : numeral ?s _, L : _ < 2 ^ 64 |- _ => rewrite (parse_number _ _ _ E X L); clear E
    | S : string_literal _ _, N : ~ called _ _ |- _ => rewrite (order_expression _ _ S N); clear S
    | S : string_literal _ (joined _ _) |- _ => fail 1
    | S : string_literal _ _ |- _ => rewrite (read_string _ _ S); clear S
    | B : byte_string_literal _ |- _ => unfold parse_bytes; rewrite (read_byte_string _ B); clear B
    | C : called _ ["BE"; ">"; "0"]%string |- _ => destruct (order_word _ Be C) as [-> ?]; clear C
    | C : called _ ["LE"; "<"; "1"]%string |- _ => destruct (order_word _ Le C) as [-> ?]; clear C
    end;
    cbn [order_code literal_code raw_code given_flag option_map];
    repeat match goal with C : byteorder_parse _ = _ |- _ => rewrite C; clear C end;
    rewrite ?orb_true_r;
    try (unfold with_flag_bits_start, at_untake; reflexivity).
  - unfold at_from_str. destruct (m_from_str m None). reflexivity.
  - match goal with N : names <> [], F : Forall _ names, S : string_literal _ _ |- _ => pose proof (list_names m _ _ N F S) as E end.
    unfold parse_list in *. unfold with_variables. cbn [f_order f_length f_count f_try_count f_branch f_bits f_bits_start f_byte_count
      f_byte_count_outside f_remaining f_key f_split f_linend f_loop f_offset f_full f_untake f_skip_decode f_skip_encode
      f_from_str f_if f_value_decode f_value_encode f_check f_vars]. rewrite E. reflexivity.
Qed.

(** ** The order of the entries *)
Definition effects (e : entry) : option (list (slot * content)) :=
  match e with
  | Tag i => option_map (fun s => [(s, Flag)]) (assoc i field_tags)
  | Property k lit =>
      option_map (fun ks : reader_kind * slot => let (rk, s) := ks in
                  (if bytes_eqb k (txt "bits_start") then [(SBitsStart, Flag)] else []) ++ [(s, read_literal rk lit)])
                 (assoc k field_properties)
  end.
Definition puts (l : list (slot * content)) (fa : field_attributes) : field_attributes :=
  fold_right (fun sc fa => put (fst sc) (snd sc) fa) fa l.
Lemma entry_effects fa e : field_entry fa e = option_map (fun l => puts l fa) (effects e).
Proof.
  destruct e as [i|k lit]; cbn [field_entry effects].
  - destruct (assoc i field_tags); reflexivity.
  - destruct (assoc k field_properties) as [[rk s]|]; [|reflexivity]. cbn [option_map].
    destruct (bytes_eqb k (txt "bits_start")); reflexivity.
Qed.
Definition same_fields (a b : field_attributes) : Prop := is_use a = is_use b /\ forall s, member a s = member b s.
Lemma same_refl a : same_fields a a. Proof. split; reflexivity. Qed.
Lemma same_trans a b c : same_fields a b -> same_fields b c -> same_fields a c.
Proof. intros [U M] [V N]. split; [congruence|]. intros s. rewrite M. apply N. Qed.
Lemma slot_beq_false s t : s <> t -> slot_beq s t = false.
Proof. intros H. destruct (slot_beq s t) eqn:E; [|reflexivity]. apply internal_slot_dec_bl in E. congruence. Qed.
Lemma slot_beq_refl s : slot_beq s s = true. Proof. destruct s; reflexivity. Qed.
Lemma puts_same l a b : same_fields a b -> same_fields (puts l a) (puts l b).
Proof.
  intros H. induction l as [|[s c] l [U M]]; [exact H|]. split; [exact U|]. intros t. cbn. rewrite M. reflexivity.
Qed.
Lemma puts_use l a : is_use (puts l a) = is_use a.
Proof. induction l; [reflexivity|]. exact IHl. Qed.
Lemma puts_other l a s : ~ In s (map fst l) -> member (puts l a) s = member a s.
Proof.
  induction l as [|[t c] l IH]; intros H; [reflexivity|]. cbn in *. rewrite slot_beq_false; [apply IH|]; tauto.
Qed.
Lemma puts_set l a b s : In s (map fst l) -> member (puts l a) s = member (puts l b) s.
Proof.
  induction l as [|[t c] l IH]; intros H; [destruct H|]. cbn in *. destruct (slot_beq t s) eqn:E; [reflexivity|].
  apply IH. destruct H as [->|H]; [rewrite slot_beq_refl in E; discriminate|exact H].
Qed.
Lemma puts_commute l r a : (forall s, In s (map fst l) -> ~ In s (map fst r)) -> same_fields (puts l (puts r a)) (puts r (puts l a)).
Proof.
  intros H. split; [rewrite !puts_use; reflexivity|]. intros s.
  destruct (in_dec slot_eq_dec s (map fst l)) as [I|I].
  - rewrite (puts_other r _ s (H s I)). apply puts_set. exact I.
  - rewrite (puts_other l _ s I). destruct (in_dec slot_eq_dec s (map fst r)) as [J|J]; [apply puts_set; exact J|].
    rewrite !puts_other by assumption. reflexivity.
Qed.
Definition alias_b (x y : string) : bool :=
  String.eqb x y || existsb (fun l => existsb (String.eqb x) l && existsb (String.eqb y) l) same_names.
Lemma called_b x l : existsb (String.eqb x) l = true -> called (txt x) l.
Proof. intros H. apply existsb_exists in H as (y & I & E). apply String.eqb_eq in E as ->. unfold called. apply (in_map txt). exact I. Qed.
Lemma alias_b_ok x y : alias_b x y = true -> alias (txt x) (txt y).
Proof.
  unfold alias_b. intros H. apply orb_true_iff in H as [H|H].
  - apply String.eqb_eq in H as ->. left. reflexivity.
  - apply existsb_exists in H as (l & I & H). apply andb_true_iff in H as [A B]. right. exists l.
    split; [exact I|]. split; apply called_b; assumption.
Qed.
Lemma tags_alias : forallb (fun p => forallb (fun q => negb (slot_beq (snd p) (snd q)) || alias_b (fst p) (fst q)) field_tags) field_tags = true.
Proof. vm_compute. reflexivity. Qed.
Definition word_b (x : string) : bool := existsb (String.eqb x) ["bits"; "bits_start"]%string.
Lemma properties_alias : forallb (fun p => forallb (fun q =>
  negb (slot_beq (snd (snd p)) (snd (snd q))) || alias_b (fst p) (fst q) || (word_b (fst p) && word_b (fst q))) field_properties) field_properties = true.
Proof. vm_compute. reflexivity. Qed.
Lemma properties_slots : forallb (fun p => negb (slot_beq (snd (snd p)) SBitsStart)) field_properties = true.
Proof. vm_compute. reflexivity. Qed.
Lemma tags_properties : forallb (fun p => forallb (fun q : string * (reader_kind * slot) => negb (slot_beq (snd p) (snd (snd q)))) field_properties) field_tags = true.
Proof. vm_compute. reflexivity. Qed.
Lemma tags_bits : forallb (fun p => negb (slot_beq (snd p) SBitsStart) || String.eqb (fst p) "bits_start") field_tags = true.
Proof. vm_compute. reflexivity. Qed.
Lemma property_slots k lit l s : effects (Property k lit) = Some l -> In s (map fst l) ->
  (s = SBitsStart /\ k = txt "bits_start") \/
  exists x rk, In (x, (rk, s)) field_properties /\ k = txt x.
Proof.
  cbn [effects]. destruct (assoc k field_properties) as [[rk t]|] eqn:E; [|discriminate]. cbn [option_map].
  intros X. injection X as <-. apply assoc_in in E as (x & I & ->). rewrite map_app, in_app_iff.
  intros [H|[<-|[]]]; [left|right; exists x, rk; split; [exact I|reflexivity]].
  destruct (bytes_eqb (txt x) (txt "bits_start")) eqn:E; [|destruct H]. apply bytes_eqb_iff in E.
  destruct H as [<-|[]]. split; [reflexivity|exact E].
Qed.
Lemma tag_slots i l s : effects (Tag i) = Some l -> In s (map fst l) -> exists x, In (x, s) field_tags /\ i = txt x.
Proof.
  cbn [effects]. destruct (assoc i field_tags) as [t|] eqn:E; [|discriminate]. cbn [option_map]. intros X. injection X as <-.
  apply assoc_in in E. intros [<-|[]]. exact E.
Qed.
Lemma tag_property a b lit l r s : ~ (a = txt "bits_start" /\ b = txt "bits_start") ->
  effects (Tag a) = Some l -> effects (Property b lit) = Some r -> In s (map fst l) -> In s (map fst r) -> False.
Proof.
  intros D L R I J. apply (tag_slots _ _ _ L) in I as (x & I & ->). apply (property_slots _ _ _ _ R) in J as [[-> ->]|(y & rk & J & ->)].
  - pose proof (proj1 (forallb_forall _ _) tags_bits _ I) as H. cbn [fst snd] in H. rewrite slot_beq_refl in H.
    cbn [negb orb] in H. apply String.eqb_eq in H as ->. apply D. split; reflexivity.
  - pose proof (proj1 (forallb_forall _ _) (proj1 (forallb_forall _ _) tags_properties _ I) _ J) as H. cbn [fst snd] in H.
    rewrite slot_beq_refl in H. discriminate.
Qed.
Lemma effects_disjoint e f l r : distinct e f -> effects e = Some l -> effects f = Some r ->
  forall s, In s (map fst l) -> ~ In s (map fst r).
Proof.
  intros D L R s I J. destruct e as [a|a la], f as [b|b lb]; cbn [distinct] in D.
  - apply (tag_slots _ _ _ L) in I as (x & I & ->). apply (tag_slots _ _ _ R) in J as (y & J & ->).
    pose proof (proj1 (forallb_forall _ _) (proj1 (forallb_forall _ _) tags_alias _ I) _ J) as H. cbn [fst snd] in H.
    rewrite slot_beq_refl in H. exact (D (alias_b_ok _ _ H)).
  - exact (tag_property _ _ _ _ _ _ D L R I J).
  - apply (tag_property b a la r l s); auto.
  - destruct D as [D W]. apply (property_slots _ _ _ _ L) in I as [[-> ->]|(x & rk & I & ->)];
      apply (property_slots _ _ _ _ R) in J as [[E ->]|(y & rk' & J & ->)].
    + apply D. left. reflexivity.
    + pose proof (proj1 (forallb_forall _ _) properties_slots _ J) as H. cbn [snd] in H. rewrite slot_beq_refl in H. discriminate.
    + subst s. pose proof (proj1 (forallb_forall _ _) properties_slots _ I) as H. cbn [snd] in H. rewrite slot_beq_refl in H. discriminate.
    + pose proof (proj1 (forallb_forall _ _) (proj1 (forallb_forall _ _) properties_alias _ I) _ J) as H. cbn [fst snd] in H.
      rewrite slot_beq_refl in H. cbn [negb orb] in H. apply orb_true_iff in H as [H|H]; [exact (D (alias_b_ok _ _ H))|].
      apply andb_true_iff in H as [A B]. apply W. split; apply called_b; assumption.
Qed.
Definition same_result (a b : option field_attributes) : Prop :=
  match a, b with Some x, Some y => same_fields x y | None, None => True | _, _ => False end.
Lemma result_trans a b c : same_result a b -> same_result b c -> same_result a c.
Proof. destruct a, b, c; cbn; try tauto. apply same_trans. Qed.
Lemma entries_same l : forall a b, same_fields a b -> same_result (field_entries a l) (field_entries b l).
Proof.
  induction l as [|e l IH]; intros a b H; [exact H|]. cbn [field_entries]. rewrite !entry_effects.
  destruct (effects e) as [ef|]; [|exact I]. cbn [option_map]. apply IH, puts_same, H.
Qed.
Lemma distinct_sym e f : distinct e f -> distinct f e.
Proof.
  assert (S : forall a b, alias a b -> alias b a) by (intros a b [->|(l & I & A & B)]; [left; reflexivity|right; eauto]).
  destruct e, f; cbn [distinct]; try tauto.
  - intros H X. apply H, S, X.
  - intros [H W]. split; [intros X; apply H, S, X|tauto].
Qed.
Lemma distinct_perm (l l' : list entry) : Permutation l l' -> ForallOrdPairs distinct l -> ForallOrdPairs distinct l'.
Proof.
  intros P. induction P as [|e l l' P IH|e f l|l l1 l2 P IHP Q IHQ]; intros H; [constructor| | |auto].
  - inversion H as [|? ? F G]; subst. constructor; [|apply IH; exact G]. rewrite Forall_forall in *. intros x I.
    apply F. apply Permutation_in with l'; [apply Permutation_sym; exact P|exact I].
  - inversion H as [|? ? F G]; subst. inversion G as [|? ? F' G']; subst. inversion F as [|? ? D F'']; subst.
    repeat constructor; auto. apply distinct_sym, D.
Qed.
Lemma entries_perm l l' : Permutation l l' -> ForallOrdPairs distinct l ->
  forall fa, same_result (field_entries fa l) (field_entries fa l').
Proof.
  intros P. induction P as [|e l l' P IH|e f l|l l1 l2 P IHP Q IHQ]; intros H fa.
  - apply same_refl.
  - inversion H as [|? ? F G]; subst. cbn [field_entries]. destruct (field_entry fa e); [apply IH; exact G|exact I].
  - inversion H as [|? ? F G]; subst. inversion F as [|? ? D F'']; subst. cbn [field_entries]. rewrite !entry_effects.
    destruct (effects f) as [r|] eqn:R, (effects e) as [l0|] eqn:L; cbn [option_map]; rewrite ?entry_effects, ?L, ?R; cbn [option_map]; try exact I.
    apply entries_same, puts_commute. exact (effects_disjoint _ _ _ _ (distinct_sym _ _ D) L R).
  - eapply result_trans; [apply IHP; exact H|]. apply IHQ. exact (distinct_perm _ _ P H).
Qed.
Lemma lines_perm l l' : Permutation l l' -> ForallOrdPairs distinct l ->
  same_result (attributes_of [jbytes_line l]) (attributes_of [jbytes_line l']).
Proof.
  intros P H. rewrite !line_parsed.
  assert ((match l' with [] => false | _ => true end) = (match l with [] => false | _ => true end)) as ->.
  { destruct l; [apply Permutation_nil in P as ->; reflexivity|]. destruct l'; [|reflexivity]. apply Permutation_sym, Permutation_nil in P. discriminate. }
  apply entries_perm; assumption.
Qed.
Lemma same_spec m a b : same_fields a b -> field_spec m a = field_spec m b.
Proof. intros [U M]. unfold field_spec. rewrite U, !M. reflexivity. Qed.

(** Lemmas about expressions in attributes. *)
From Coq Require Import Ascii String.
From Verif Require Import Base BaseLemmas Ints Text Spec SpecOps AttrParse GenExpr TextSpec GenExprSpec.
Close Scope string_scope.

(** ** Tokens *)
Lemma flush_app w l m : l <> None -> flush w (match l, m with Some a, Some b => Some (a ++ b) | _, _ => None end) =
  match flush w l, m with Some a, Some b => Some (a ++ b) | _, _ => None end.
Proof.
  intros H. destruct l as [l|]; [|congruence]. unfold flush. destruct w as [|c w]; [reflexivity|].
  destruct (word_token (c :: w)), m; reflexivity.
Qed.
(** Characters of which operators of two are made. *)
Definition joins (c : byte) : bool := existsb (Byte.eqb c) (txt "<>=!&|").
Lemma pair_left c d : joins c = false -> punct_pair c d = None.
Proof. destruct c; try reflexivity; discriminate. Qed.
Lemma pair_right c d : joins d = false -> punct_pair c d = None.
Proof. intros H. destruct c; try reflexivity; destruct d; try reflexivity; discriminate. Qed.
Lemma pair_joins c d o : punct_pair c d = Some o -> joins d = true.
Proof. intros H. destruct (joins d) eqn:E; [reflexivity|]. now rewrite pair_right in H. Qed.
Definition both_tokens (l m : option (list token)) : option (list token) :=
  match l, m with Some a, Some b => Some (a ++ b) | _, _ => None end.
Lemma flush_both w l m : l <> None -> flush w (both_tokens l m) = both_tokens (flush w l) m.
Proof. apply flush_app. Qed.
Lemma then_both ts l m : then_tokens ts (both_tokens l m) = both_tokens (then_tokens ts l) m.
Proof. destruct l, m; cbn; try reflexivity. now rewrite app_assoc. Qed.
Lemma flush_none w : flush w None = None.
Proof. unfold flush. destruct w as [|c w]; [reflexivity|]. now destruct (word_token (c :: w)). Qed.
Lemma flush_nil w l : flush w l = both_tokens (flush w (Some [])) (flush [] l).
Proof. unfold flush, both_tokens. destruct w as [|c w]; [now destruct l|]. destruct (word_token (c :: w)), l; reflexivity. Qed.
Lemma flush_both_any w l m : flush w (both_tokens l m) = both_tokens (flush w l) m.
Proof.
  destruct l as [l|]; [apply flush_both; discriminate|]. cbn [both_tokens]. now rewrite flush_none.
Qed.
Definition last_joins (a : bytes) : bool := match a with [] => false | _ => joins (last a x00) end.
(** A text is cut before a character that is not part of a word, if that does not cut an
    operator. *)
Lemma lex_split a : forall w c b, is_word c = false -> last_joins a = false \/ joins c = false ->
  lex w (a ++ c :: b) = both_tokens (lex w a) (lex [] (c :: b)).
Proof.
  assert (G : forall n a w c b, (length a <= n)%nat -> is_word c = false -> last_joins a = false \/ joins c = false ->
    lex w (a ++ c :: b) = both_tokens (lex w a) (lex [] (c :: b))).
  { clear a. induction n as [|n IH]; intros a w c b Hn Hc Hj.
    - destruct a; [|cbn in Hn; lia]. change ([] ++ c :: b) with (c :: b).
      cbn [lex]. rewrite Hc. unfold punct.
      destruct b as [|d b]; [|destruct (punct_pair c d) as [o|]].
      2: apply flush_nil.
      all: destruct (punct_token c) as [ts|]; [apply flush_nil|now destruct (flush w (Some []))].
    - destruct a as [|x a]; [apply IH; [cbn; lia|exact Hc|exact Hj]|]. cbn [length] in Hn. cbn [app lex].
      assert (Hj' : forall u v, x :: a = u ++ v -> v <> [] -> last_joins v = false \/ joins c = false).
      { intros u v E Hv. destruct Hj as [Hj|Hj]; [|now right]. left. unfold last_joins in *. rewrite E in Hj.
        destruct (u ++ v) eqn:F; [discriminate|]. rewrite <- F in Hj. destruct v as [|y v]; [congruence|].
        rewrite (app_removelast_last x00 (l := y :: v)) in Hj by discriminate. rewrite app_assoc, last_last in Hj. exact Hj. }
      assert (Ha : last_joins a = false \/ joins c = false).
      { destruct a as [|y a]; [now left|]. apply (Hj' [x]); [reflexivity|discriminate]. }
      destruct (is_word x); [apply IH; [lia|exact Hc|exact Ha]|].
      assert (One : punct w x (lex [] (a ++ c :: b)) = both_tokens (punct w x (lex [] a)) (lex [] (c :: b))).
      { rewrite (IH a [] c b) by (try assumption; lia). unfold punct. destruct (punct_token x) as [ts|]; [|reflexivity].
        now rewrite then_both, flush_both_any. }
      destruct a as [|y a].
      + cbn [app] in *. replace (punct_pair x c) with (@None binop); [exact One|]. symmetry.
        destruct Hj as [Hj|Hj]; [now apply pair_left|now apply pair_right].
      + cbn [app] in *. destruct (punct_pair x y) as [o|] eqn:P; [|exact One].
        cbn [length] in Hn. assert (Ha2 : last_joins a = false \/ joins c = false).
        { destruct a as [|z a]; [now left|]. apply (Hj' [x; y]); [reflexivity|discriminate]. }
        rewrite (IH a [] c b) by (try assumption; lia).
        now rewrite then_both, flush_both_any. }
  intros w c b Hc Hj. exact (G (length a) a w c b (le_n _) Hc Hj).
Qed.
(** A character that is not part of a word nor of an operator separates. *)
Lemma lex_cut a : forall w c b ts, is_word c || joins c = false -> punct_token c = Some ts ->
  lex w (a ++ c :: b) =
  match lex w a, lex [] b with Some l, Some m => Some (l ++ ts ++ m) | _, _ => None end.
Proof.
  intros w c b ts Hc Hp. apply orb_false_iff in Hc as [Hc Hj]. rewrite (lex_split a w c b Hc (or_intror Hj)).
  cbn [lex]. rewrite Hc. unfold punct. rewrite Hp.
  replace (match b with d :: _ => _ | [] => _ end) with (flush [] (then_tokens ts (lex [] b))).
  - cbn [flush]. destruct (lex w a), (lex [] b); reflexivity.
  - destruct b as [|d b]; [reflexivity|]. now rewrite (pair_left c d Hj).
Qed.
Definition tail_tokens : list token := [TClose; TAs; TName (txt "usize")].
Lemma lex_var_code (is_self : bool) v :
  lex [] (var_code is_self v) =
  match lex [] v with
  | Some ts => Some (TOpen :: (if is_self then [TName (txt "self"); TDot] else []) ++ ts ++ tail_tokens)
  | None => None
  end.
Proof.
  assert (E : lex [] (v ++ txt ") as usize") = match lex [] v with Some ts => Some (ts ++ tail_tokens) | None => None end).
  { change (txt ") as usize") with (")"%byte :: txt " as usize"). rewrite (lex_cut v [] ")"%byte (txt " as usize") [TClose]) by reflexivity.
    change (lex [] (txt " as usize")) with (Some [TAs; TName (txt "usize")]). reflexivity. }
  unfold var_code. destruct is_self.
  - change (txt "(" ++ txt "self." ++ v ++ txt ") as usize") with ("("%byte :: txt "self" ++ "."%byte :: v ++ txt ") as usize").
    change ("("%byte :: txt "self" ++ "."%byte :: v ++ txt ") as usize") with (([]:bytes) ++ "("%byte :: (txt "self" ++ "."%byte :: v ++ txt ") as usize")).
    rewrite (lex_cut [] [] "("%byte _ [TOpen]) by reflexivity.
    rewrite (lex_cut (txt "self") [] "."%byte _ [TDot]) by reflexivity.
    change (lex [] (txt "self")) with (Some [TName (txt "self")]). rewrite E. cbn [lex flush].
    destruct (lex [] v); reflexivity.
  - change (txt "(" ++ [] ++ v ++ txt ") as usize") with (([]:bytes) ++ "("%byte :: (v ++ txt ") as usize")).
    rewrite (lex_cut [] [] "("%byte _ [TOpen]) by reflexivity. rewrite E. destruct (lex [] v); reflexivity.
Qed.

Lemma lex_order_code (is_self : bool) v :
  lex [] (order_code is_self v) =
  match lex [] v with
  | Some ts => Some ((if is_self then [TName (txt "self"); TDot] else []) ++ ts ++ [TAs; TName (txt "isize")])
  | None => None
  end.
Proof.
  assert (E : lex [] (v ++ txt " as isize") = match lex [] v with Some ts => Some (ts ++ [TAs; TName (txt "isize")]) | None => None end).
  { change (txt " as isize") with (" "%byte :: txt "as isize"). rewrite (lex_cut v [] " "%byte (txt "as isize") []) by reflexivity.
    change (lex [] (txt "as isize")) with (Some [TAs; TName (txt "isize")]). reflexivity. }
  unfold order_code. destruct is_self.
  - change (txt "self." ++ v ++ txt " as isize") with (txt "self" ++ "."%byte :: v ++ txt " as isize").
    rewrite (lex_cut (txt "self") [] "."%byte _ [TDot]) by reflexivity.
    change (lex [] (txt "self")) with (Some [TName (txt "self")]). rewrite E. destruct (lex [] v); reflexivity.
  - exact E.
Qed.

(** ** Parsing *)
Lemma fuel_enough k :
  (forall l ts e, parse k l ts = Some e -> forall k', (k <= k')%nat -> parse k' l ts = Some e) /\
  (forall l a ts e, extend k l a ts = Some e -> forall k', (k <= k')%nat -> extend k' l a ts = Some e).
Proof.
  induction k as [|k [IHp IHe]]; [split; intros; discriminate|]. split.
  - intros l ts e H [|k'] Hk; [lia|]. cbn [parse] in *. destruct ts as [|[] r]; try discriminate.
    + apply (IHe _ _ _ _ H). lia.
    + apply (IHe _ _ _ _ H). lia.
    + destruct (in_front (TOp o)) as [f|]; [|discriminate]. destruct (parse k 10 r) as [[e1 r1]|] eqn:E; [|discriminate].
      rewrite (IHp _ _ _ E k') by lia. apply (IHe _ _ _ _ H). lia.
    + cbn [in_front] in *. destruct (parse k 10 r) as [[e1 r1]|] eqn:E; [|discriminate].
      rewrite (IHp _ _ _ E k') by lia. apply (IHe _ _ _ _ H). lia.
    + destruct (parse k 0 r) as [[e1 [|[] r1]]|] eqn:E; try discriminate.
      rewrite (IHp _ _ _ E k') by lia. apply (IHe _ _ _ _ H). lia.
  - intros l a ts e H [|k'] Hk; [lia|]. cbn [extend] in *.
    destruct ts as [|[] r]; try exact H.
    + destruct (prec o <? l)%nat; [exact H|].
      destruct (parse k (S (prec o)) r) as [[b r']|] eqn:E; [|discriminate].
      rewrite (IHp _ _ _ E k') by lia. destruct (compares o && compares_next r'); [discriminate|]. apply (IHe _ _ _ _ H). lia.
    + destruct r as [|[] r]; try exact H; apply (IHe _ _ _ _ H); lia.
    + destruct r as [|[] r]; try exact H. destruct (9 <? l)%nat; [exact H|]. apply (IHe _ _ _ _ H); lia.
Qed.

(** [e'] is [e] with [a'] instead of [a] at the far left. *)
Inductive graft (a a' : rexpr) : rexpr -> rexpr -> Prop :=
| g_here : graft a a' a a'
| g_field e e' f : graft a a' e e' -> graft a a' (EField e f) (EField e' f)
| g_cast e e' t : graft a a' e e' -> graft a a' (ECast e t) (ECast e' t)
| g_op o e e' b : graft a a' e e' -> graft a a' (EOp o e b) (EOp o e' b).
Lemma graft_trans a a' b b' c c' : graft a a' b b' -> graft b b' c c' -> graft a a' c c'.
Proof. intros H. induction 1; try (constructor; assumption); assumption. Qed.
Lemma extend_graft k : forall l a a' ts e r, extend k l a ts = Some (e, r) ->
  exists e', extend k l a' ts = Some (e', r) /\ graft a a' e e'.
Proof.
  induction k as [|k IH]; intros l a a' ts e r H; [discriminate|]. cbn [extend] in *.
  assert (N : forall us, Some (a, us) = Some (e, r) -> exists e', Some (a', us) = Some (e', r) /\ graft a a' e e').
  { intros us [= <- <-]. exists a'. split; [reflexivity|constructor]. }
  destruct ts as [|[] ts]; try (apply N; exact H).
  - destruct (prec o <? l)%nat; [now apply N|]. destruct (parse k (S (prec o)) ts) as [[b us]|]; [|discriminate].
    destruct (compares o && compares_next us); [discriminate|]. destruct (IH _ _ (EOp o a' b) _ _ _ H) as (e' & H1 & H2). exists e'. split; [exact H1|].
    eapply graft_trans; [|exact H2]. repeat constructor.
  - destruct ts as [|[] ts]; try (apply N; exact H).
    + destruct (IH _ _ (EField a' (LName x)) _ _ _ H) as (e' & H1 & H2). exists e'. split; [exact H1|].
      eapply graft_trans; [|exact H2]. repeat constructor.
    + destruct (IH _ _ (EField a' (LNum n)) _ _ _ H) as (e' & H1 & H2). exists e'. split; [exact H1|].
      eapply graft_trans; [|exact H2]. repeat constructor.
  - destruct ts as [|[] ts]; try (apply N; exact H). destruct (9 <? l)%nat; [now apply N|].
    destruct (IH _ _ (ECast a' x) _ _ _ H) as (e' & H1 & H2). exists e'. split; [exact H1|].
    eapply graft_trans; [|exact H2]. repeat constructor.
Qed.

(** ** Completeness for Rust's grammar *)
Lemma is_digit_iff c : is_digit c = true <-> digit c.
Proof. unfold is_digit, digit, b2n. rewrite andb_true_iff, !N.leb_le. reflexivity. Qed.
Lemma is_word_iff c : is_word c = true <-> letter c \/ digit c.
Proof.
  unfold is_word. rewrite !orb_true_iff, is_digit_iff, !andb_true_iff, !N.leb_le, N.eqb_eq. unfold letter, digit, b2n.
  assert (c = "_"%byte <-> Byte.to_N c = 95).
  { split; [now intros ->|]. intros H. apply (f_equal Byte.of_N) in H. rewrite Byte.of_to_N in H. now injection H. }
  tauto.
Qed.
Lemma lex_word w : forall s, Forall (fun c => is_word c = true) s -> lex w s = flush (w ++ s) (Some []).
Proof.
  intros s H. revert w. induction H as [|c s Hc H IH]; intros w; cbn [lex]; [now rewrite app_nil_r|].
  rewrite Hc, IH, <- app_assoc. reflexivity.
Qed.
Lemma lex_name x : a_name x -> lex [] x = Some [TName x].
Proof.
  intros [H Has]. destruct x as [|c r]; [easy|]. destruct H as [Hc Hr]. rewrite lex_word.
  - cbn [app flush word_token]. destruct (is_digit c) eqn:E.
    + apply is_digit_iff in E. unfold letter, digit in *. exfalso.
      destruct Hc as [Hc|[Hc|Hc]]; [lia|lia|subst c]. cbv in E. destruct E as [_ E]. now apply E.
    + destruct (bytes_eqb (c :: r) (txt "as")) eqn:Ea; [|reflexivity]. apply bytes_eqb_eq in Ea. now elim Has.
  - constructor; [apply is_word_iff; now left|]. eapply Forall_impl; [|exact Hr]. intros d Hd. now apply is_word_iff.
Qed.
Lemma lex_number s n : decimal_text s n -> lex [] s = Some [TNum n].
Proof.
  intros (Hs & Hd & Hn & H0). rewrite lex_word.
  - destruct s as [|c r]; [congruence|]. cbn [app flush].
    assert (F : forallb is_digit (c :: r) = true).
    { apply forallb_forall. intros d Hi. apply is_digit_iff. revert d Hi. now apply Forall_forall. }
    pose proof F as F'. cbn [forallb] in F'. apply andb_true_iff in F' as [F' _].
    replace (word_token (c :: r)) with
      (if forallb is_digit (c :: r) then Some (TNum (fold_left (fun n d => 10 * n + (b2n d - 48)) (c :: r) 0)) else None).
    + rewrite F. rewrite <- Hn. reflexivity.
    + unfold word_token. rewrite F'. destruct (Byte.byte_eq_dec c "0"%byte) as [->|Hc].
      * specialize (H0 eq_refl). injection H0 as ->. reflexivity.
      * destruct c; try reflexivity. now elim Hc.
  - eapply Forall_impl; [|exact Hd]. intros d H. apply is_word_iff. now right.
Qed.
Lemma hex_char c d : hex_digit c d -> is_hex c = true /\ hex_value c = d /\ is_word c = true.
Proof.
  assert (U : forall c, b2n c = Byte.to_N c) by reflexivity.
  intros H. assert (D : (48 <= Byte.to_N c <= 57 /\ d = Byte.to_N c - 48) \/ (97 <= Byte.to_N c <= 102 /\ d = Byte.to_N c - 87) \/
                        (65 <= Byte.to_N c <= 70 /\ d = Byte.to_N c - 55)).
  { assert (T : forall n, n < 256 -> Byte.to_N (byte_of n) = n).
    { intros n Hn. change (Byte.to_N (byte_of n)) with (b2n (n2b n)). now rewrite b2n_n2b, N.mod_small. }
    destruct H as [[[Hd ->]|[Hd ->]]|[[Hd ->]|[Hd ->]]]; rewrite T by lia; lia. }
  unfold is_hex, hex_value, is_word, is_digit. rewrite U.
  destruct D as [[D ->]|[[D ->]|[D ->]]].
  - replace (48 <=? Byte.to_N c) with true by (symmetry; apply N.leb_le; lia).
    replace (Byte.to_N c <=? 57) with true by (symmetry; apply N.leb_le; lia). auto.
  - replace (Byte.to_N c <=? 57) with false by (symmetry; apply N.leb_gt; lia). rewrite andb_false_r.
    replace (Byte.to_N c <=? 70) with false by (symmetry; apply N.leb_gt; lia). rewrite andb_false_r.
    replace (97 <=? Byte.to_N c) with true by (symmetry; apply N.leb_le; lia).
    replace (Byte.to_N c <=? 102) with true by (symmetry; apply N.leb_le; lia).
    replace (Byte.to_N c <=? 122) with true by (symmetry; apply N.leb_le; lia). cbn. rewrite orb_true_r. auto.
  - replace (Byte.to_N c <=? 57) with false by (symmetry; apply N.leb_gt; lia). rewrite andb_false_r.
    replace (65 <=? Byte.to_N c) with true by (symmetry; apply N.leb_le; lia).
    replace (Byte.to_N c <=? 70) with true by (symmetry; apply N.leb_le; lia).
    replace (Byte.to_N c <=? 90) with true by (symmetry; apply N.leb_le; lia). auto.
Qed.
Lemma hex_shape s n : hex_number s n -> exists c r, s = "0"%byte :: "x"%byte :: c :: r /\
  forallb is_hex (c :: r) = true /\ Forall (fun c => is_word c = true) s /\
  fold_left (fun n d => 16 * n + hex_value d) (c :: r) 0 = n.
Proof.
  induction 1 as [c d H|s n c d _ (x & r & -> & F & W & V) H].
  - apply hex_char in H as (F & V & W). exists c, []. cbn [forallb fold_left]. rewrite F, V. repeat split; auto.
  - apply hex_char in H as (F' & V' & W'). exists x, (r ++ [c]). split; [reflexivity|].
    change (x :: r ++ [c]) with ((x :: r) ++ [c]). rewrite forallb_app, fold_left_app, F, V. cbn [forallb fold_left]. rewrite F', V'.
    repeat split; auto. change (Forall (fun c0 => is_word c0 = true) (("0"%byte :: "x"%byte :: x :: r) ++ [c])).
    apply Forall_app. auto.
Qed.
Lemma lex_hex s n : hex_number s n -> lex [] s = Some [TNum n].
Proof.
  intros H. apply hex_shape in H as (c & r & -> & F & W & V). rewrite lex_word by exact W.
  cbn [app flush word_token]. rewrite F, V. reflexivity.
Qed.
Definition rank (l : strength) : nat :=
  match l with
  | Disjunction => 0 | Conjunction => 1 | Comparison => 2 | BitOr => 3 | BitXor => 4 | BitAnd => 5
  | Shift => 6 | Sum => 7 | Product => 8 | Cast => 9 | Atom => 10
  end.
(** How tightly the operand on the left binds. *)
Definition left_rank (o : binop) : nat := if compares o then 3 else prec o.
Lemma prec_left o : (prec o <= left_rank o <= 8)%nat.
Proof. destruct o; cbn; lia. Qed.
(** The tokens of a text of a given strength. *)
Inductive tokens_of : nat -> list token -> rexpr -> Prop :=
| to_number n : tokens_of 10 [TNum n] (ENum n)
| to_name x : tokens_of 10 [TName x] (EName x)
| to_paren ts e : tokens_of 0 ts e -> tokens_of 10 (TOpen :: ts ++ [TClose]) e
| to_field ts e x : tokens_of 10 ts e -> tokens_of 10 (ts ++ [TDot; TName x]) (EField e (LName x))
| to_index ts e n : tokens_of 10 ts e -> tokens_of 10 (ts ++ [TDot; TNum n]) (EField e (LNum n))
| to_front t f ts e : in_front t = Some f -> tokens_of 10 ts e -> tokens_of 9 (t :: ts) (EField e f)
| to_cast ts e t : tokens_of 9 ts e -> tokens_of 9 (ts ++ [TAs; TName t]) (ECast e t)
| to_op ts a us b o : tokens_of (left_rank o) ts a -> tokens_of (S (prec o)) us b ->
    tokens_of (prec o) (ts ++ TOp o :: us) (EOp o a b)
| to_weaken l ts e : tokens_of (S l) ts e -> tokens_of l ts e.
(** Texts do not begin or end with half an operator. *)
Lemma last_joins_app a b : b <> [] -> last_joins (a ++ b) = last_joins b.
Proof.
  intros Hb. unfold last_joins. destruct b as [|c b]; [congruence|]. destruct (a ++ c :: b) eqn:E; [now destruct a|]. rewrite <- E.
  rewrite (app_removelast_last x00 (l := c :: b)) at 1 by discriminate. now rewrite app_assoc, last_last.
Qed.
Lemma word_joins c : is_word c = true -> joins c = false.
Proof. destruct c; try reflexivity; discriminate. Qed.
Lemma words_end s : Forall (fun c => is_word c = true) s -> last_joins s = false.
Proof.
  intros H. unfold last_joins. destruct s as [|c s]; [reflexivity|]. apply word_joins.
  apply (proj1 (Forall_forall _ _) H). rewrite (app_removelast_last x00 (l := c :: s)) at 2 by discriminate.
  apply in_app_iff. right. now left.
Qed.
Lemma name_words x : a_name x -> Forall (fun c => is_word c = true) x /\ x <> [].
Proof.
  intros [H _]. destruct x as [|c r]; [easy|]. destruct H as [Hc Hr]. split; [|discriminate].
  constructor; [apply is_word_iff; now left|]. eapply Forall_impl; [|exact Hr]. intros d Hd. now apply is_word_iff.
Qed.
Lemma number_words s n : decimal_text s n -> Forall (fun c => is_word c = true) s /\ s <> [].
Proof.
  intros (Hs & Hd & _). split; [|exact Hs]. eapply Forall_impl; [|exact Hd]. intros d H. apply is_word_iff. now right.
Qed.
Lemma text_ends l s e : reads_as l s e -> last_joins s = false /\ exists c r, s = c :: r /\ (joins c = false \/ c = "!"%byte).
Proof.
  assert (W : forall s, Forall (fun c => is_word c = true) s /\ s <> [] ->
    last_joins s = false /\ exists c r, s = c :: r /\ (joins c = false \/ c = "!"%byte)).
  { intros t [H Hn]. split; [now apply words_end|]. destruct t as [|c r]; [congruence|]. exists c, r. split; [reflexivity|].
    left. inversion_clear H. now apply word_joins. }
  assert (E : forall s t, (exists c r, s = c :: r /\ (joins c = false \/ c = "!"%byte)) -> t <> [] -> last_joins t = false ->
    last_joins (s ++ t) = false /\ exists c r, s ++ t = c :: r /\ (joins c = false \/ c = "!"%byte)).
  { intros t u (c & r & -> & Hc) Hu Hl. split; [now rewrite last_joins_app|]. exists c, (r ++ u). auto. }
  induction 1 as [s n H|s n H|x H|s e _ [IL IS]|s e x _ [IL IS] _ Hx|s e t n _ [IL IS] _ Hn|c f s e Hf _ [IL IS]|s e t _ [IL IS] Ht
    |s a t b o sign result left right Ho _ [IL IS] _ [JL JS]|l l' s e _ _ IH|l s e _ [IL IS]|l s e _ [IL IS]].
  - now apply W, number_words with n.
  - apply hex_shape in H as (c & r & -> & _ & H & _). apply W. split; [exact H|discriminate].
  - now apply W, name_words.
  - split.
    + change ("("%byte :: s ++ [")"%byte]) with (("("%byte :: s) ++ [")"%byte]). now rewrite last_joins_app.
    + exists "("%byte, (s ++ [")"%byte]). split; [reflexivity|now left].
  - apply name_words in Hx as [Hx Hn]. apply E; [exact IS|discriminate|].
    change ("."%byte :: x) with (["."%byte] ++ x). rewrite last_joins_app by exact Hn. now apply words_end.
  - apply number_words in Hn as [Hx Hn]. apply E; [exact IS|discriminate|].
    change ("."%byte :: t) with (["."%byte] ++ t). rewrite last_joins_app by exact Hn. now apply words_end.
  - destruct IS as (d & r & -> & _). split.
    + change (c :: d :: r) with ([c] ++ d :: r). now rewrite last_joins_app.
    + exists c, (d :: r). split; [reflexivity|]. destruct Hf; auto.
  - apply name_words in Ht as [Hx Hn]. apply E; [exact IS|now destruct t|]. rewrite last_joins_app by exact Hn. now apply words_end.
  - destruct JS as (d & r & -> & _). apply E; [exact IS|now destruct Ho|]. now rewrite last_joins_app.
  - exact IH.
  - destruct IS as (d & r & -> & _). split.
    + change (" "%byte :: d :: r) with ([" "%byte] ++ d :: r). now rewrite last_joins_app.
    + exists " "%byte, (d :: r). split; [reflexivity|now left].
  - apply E; [exact IS|discriminate|reflexivity].
Qed.
Lemma lex_sign o sign result left right t : sign_of o sign result left right ->
  (exists c r, t = c :: r /\ (joins c = false \/ c = "!"%byte)) ->
  lex [] (txt sign ++ t) = then_tokens [TOp o] (lex [] t) /\
  (exists c r, txt sign = c :: r /\ is_word c = false) /\
  rank left = left_rank o /\ rank right = S (prec o) /\ rank result = prec o.
Proof.
  intros Ho (c & r & -> & Hc).
  assert (P : forall d, joins d = true -> (d <> "!"%byte /\ d <> "="%byte) -> punct_pair d c = None).
  { intros d Hd [N1 N2]. destruct Hc as [Hc| ->]; [now apply pair_right|]. destruct d; try reflexivity; discriminate. }
  split.
  - destruct Ho; try (change (lex [] (txt ?s ++ c :: r)) with (lex [] (list_byte_of_string s ++ c :: r)); reflexivity).
    all: match goal with |- lex [] (txt ?s ++ _) = _ => let v := eval vm_compute in (txt s) in change (txt s) with v end.
    all: cbn [app]; match goal with |- lex [] (?d :: _) = _ => cbn [lex]; change (is_word d) with false; cbv iota end.
    all: try (rewrite P by (try reflexivity; split; discriminate); reflexivity).
    all: try (rewrite pair_left by reflexivity; reflexivity).
    all: reflexivity.
  - split; [destruct Ho; eexists; eexists; (split; [vm_compute; reflexivity|reflexivity])|]. destruct Ho; repeat split.
Qed.
Lemma lex_reads l s e : reads_as l s e -> exists ts, lex [] s = Some ts /\ tokens_of (rank l) ts e.
Proof.
  induction 1 as [s n H|s n H|x H|s e _ (ts & L & T)|s e x _ (ts & L & T) _ Hx|s e t n _ (ts & L & T) _ Hn|c f s e Hf Hs (ts & L & T)|s e t _ (ts & L & T) Ht
    |s a t b o sign result left right Ho Hs (ts & L & T) Ht (us & M & U)|l l' s e Hl _ (ts & L & T)|l s e _ (ts & L & T)|l s e _ (ts & L & T)].
  - exists [TNum n]. split; [now apply lex_number|constructor].
  - exists [TNum n]. split; [now apply lex_hex|constructor].
  - exists [TName x]. split; [now apply lex_name|constructor].
  - exists (TOpen :: ts ++ [TClose]). split; [|now constructor].
    pose proof (lex_cut [] [] "("%byte (s ++ [")"%byte]) [TOpen] eq_refl eq_refl) as E. cbn [app] in E. rewrite E.
    rewrite (lex_cut s [] ")"%byte [] [TClose] eq_refl eq_refl), L. reflexivity.
  - exists (ts ++ [TDot; TName x]). split; [|now constructor].
    rewrite (lex_cut s [] "."%byte x [TDot] eq_refl eq_refl), L, lex_name by exact Hx. reflexivity.
  - exists (ts ++ [TDot; TNum n]). split; [|now constructor].
    rewrite (lex_cut s [] "."%byte t [TDot] eq_refl eq_refl), L, (lex_number t n Hn). reflexivity.
  - destruct (text_ends _ _ _ Hs) as [_ (d & r & -> & Hd)].
    assert (E : exists u, in_front u = Some f /\ lex [] (c :: d :: r) = then_tokens [u] (lex [] (d :: r))).
    { assert (P : punct_pair "!"%byte d = None) by (destruct Hd as [Hd| ->]; [now apply pair_right|reflexivity]).
      destruct Hf; [exists (TOp Times)|exists (TOp Minus)|exists TNot]; (split; [reflexivity|]);
        match goal with |- lex [] (?c :: _) = _ =>
          change (lex [] (c :: d :: r)) with (match punct_pair c d with
            Some o => flush [] (then_tokens [TOp o] (lex [] r)) | None => punct [] c (lex [] (d :: r)) end) end;
        ((rewrite pair_left by reflexivity) || rewrite P); reflexivity. }
    destruct E as (u & Hu & E). exists (u :: ts). split; [now rewrite E, L|now constructor].
  - exists (ts ++ [TAs; TName t]). split; [|now constructor].
    change (s ++ list_byte_of_string " as " ++ t) with (s ++ " "%byte :: txt "as" ++ " "%byte :: t).
    rewrite (lex_cut s [] " "%byte _ [] eq_refl eq_refl), L.
    rewrite (lex_cut (txt "as") [] " "%byte t [] eq_refl eq_refl), (lex_name t Ht). reflexivity.
  - exists (ts ++ TOp o :: us). destruct (text_ends _ _ _ Hs) as [IL _]. destruct (text_ends _ _ _ Ht) as [_ JS].
    destruct (lex_sign _ _ _ _ _ _ Ho JS) as (E & (c & r & F & W) & E1 & E2 & E3).
    rewrite E3. rewrite E1 in T. rewrite E2 in U. split; [|now constructor].
    change (list_byte_of_string sign) with (txt sign). rewrite F in E |- *. cbn [app] in E |- *.
    rewrite (lex_split s [] c (r ++ t) W (or_introl IL)), E, L, M. reflexivity.
  - exists ts. split; [exact L|]. destruct Hl; now apply to_weaken.
  - exists ts. split; [|exact T]. pose proof (lex_cut [] [] " "%byte s [] eq_refl eq_refl) as E. cbn [app] in E. rewrite E, L. reflexivity.
  - exists ts. split; [|exact T]. rewrite (lex_cut s [] " "%byte [] [] eq_refl eq_refl), L. cbn. now rewrite app_nil_r.
Qed.
(** Nothing that extends an expression of strength [l] follows. *)
Definition stops (l : nat) (rest : list token) : Prop :=
  match rest with
  | TDot :: _ => (10 < l)%nat
  | TAs :: _ => (9 < l)%nat
  | TOp o :: _ => (left_rank o < l)%nat
  | _ => True
  end.
Lemma stops_more l l' rest : stops l rest -> (l <= l')%nat -> stops l' rest.
Proof. intros H Hl. destruct rest as [|[] r]; cbn in *; try easy; lia. Qed.
Lemma stops_extend l a rest k : stops l rest -> (l <= 10)%nat -> extend (S k) l a rest = Some (a, rest).
Proof.
  intros H Hl. cbn [extend]. destruct rest as [|[] r]; try reflexivity; cbn [stops] in H.
  - pose proof (prec_left o). replace (prec o <? l)%nat with true by (symmetry; apply Nat.ltb_lt; lia). reflexivity.
  - lia.
  - apply Nat.ltb_lt in H. destruct r as [|[] r]; try reflexivity. now rewrite H.
Qed.
Lemma parse_tokens l ts e : tokens_of l ts e -> forall l' rest k r, (l' <= l)%nat -> stops (S l) rest ->
  extend k l' e rest = Some r -> exists k', parse k' l' (ts ++ rest) = Some r.
Proof.
  induction 1 as [n|x|ts e _ IH|ts e x _ IH|ts e n _ IH|t f ts e Hf _ IH|ts e t _ IH|ts a us b o _ IHa _ IHb|l ts e _ IH]; intros l' rest k r Hl Hs HX.
  - exists (S k). exact HX.
  - exists (S k). exact HX.
  - destruct (IH 0%nat (TClose :: rest) 1%nat (e, TClose :: rest)) as (k' & P); [lia|easy|reflexivity|].
    exists (S (k + k')). cbn [app parse]. rewrite <- app_assoc. cbn [app].
    rewrite (proj1 (fuel_enough k') _ _ _ P (k + k')%nat) by lia.
    apply (proj2 (fuel_enough k) _ _ _ _ HX). lia.
  - rewrite <- app_assoc. apply (IH l' ([TDot; TName x] ++ rest) (S k)); [lia|cbn; lia|exact HX].
  - rewrite <- app_assoc. apply (IH l' ([TDot; TNum n] ++ rest) (S k)); [lia|cbn; lia|exact HX].
  - destruct (IH 10%nat rest 1%nat (e, rest)) as (k' & P); [lia|apply (stops_more 10); [exact Hs|lia]|now apply stops_extend|].
    exists (S (k + k')).
    assert (E : parse (S (k + k')) l' ((t :: ts) ++ rest) =
                match parse (k + k') 10 (ts ++ rest) with Some (e, r') => extend (k + k') l' (EField e f) r' | None => None end).
    { destruct t as [| |o| | | | |]; try discriminate Hf.
      - cbn [app parse]. now rewrite Hf.
      - injection Hf as <-. reflexivity. }
    rewrite E. rewrite (proj1 (fuel_enough k') _ _ _ P (k + k')%nat) by lia.
    apply (proj2 (fuel_enough k) _ _ _ _ HX). lia.
  - rewrite <- app_assoc. apply (IH l' ([TAs; TName t] ++ rest) (S k)); [lia|cbn; lia|].
    cbn [app extend]. replace (9 <? l')%nat with false by (symmetry; apply Nat.ltb_ge; lia). exact HX.
  - pose proof (prec_left o) as Hp.
    destruct (IHb (S (prec o)) rest 1%nat (b, rest)) as (k' & P); [lia|apply (stops_more (S (prec o))); [exact Hs|lia]| |].
    { apply stops_extend; [exact Hs|lia]. }
    rewrite <- app_assoc. cbn [app].
    apply (IHa l' (TOp o :: us ++ rest) (S (k + k'))); [lia|cbn; lia|].
    cbn [extend]. replace (prec o <? l')%nat with false by (symmetry; apply Nat.ltb_ge; lia).
    rewrite (proj1 (fuel_enough k') _ _ _ P (k + k')%nat) by lia.
    replace (compares o && compares_next rest) with false.
    + apply (proj2 (fuel_enough k) _ _ _ _ HX). lia.
    + symmetry. apply andb_false_iff. destruct (compares o) eqn:C; [right|now left].
      assert (prec o = 2)%nat as E by now apply Nat.eqb_eq. rewrite E in Hs.
      destruct rest as [|[] rest]; try reflexivity. cbn [stops] in Hs. unfold left_rank in Hs. cbn [compares_next].
      destruct (compares o0); [lia|reflexivity].
  - apply (IH l' rest k r); [lia| |exact HX]. apply (stops_more (S l)); [exact Hs|lia].
Qed.

(** The variables of an expression are the bare names of its text. *)
Fixpoint names (e : rexpr) : list bytes :=
  match e with
  | ENum _ => []
  | EName x => [x]
  | EField e _ | ECast e _ => names e
  | EOp _ a b => names a ++ names b
  end.
Lemma parse_names k :
  (forall l ts e r, parse k l ts = Some (e, r) -> bare ts = names e ++ bare r) /\
  (forall l a ts e r, extend k l a ts = Some (e, r) -> exists ns, names e = names a ++ ns /\ bare ts = ns ++ bare r).
Proof.
  induction k as [|k [IHp IHe]]; [split; intros; discriminate|]. split.
  - intros l ts e r H. cbn [parse] in H. destruct ts as [|[] ts]; try discriminate.
    + destruct (IHe _ _ _ _ _ H) as (ns & -> & Hb). cbn. now rewrite Hb.
    + destruct (IHe _ _ _ _ _ H) as (ns & -> & Hb). cbn. now rewrite Hb.
    + destruct (in_front (TOp o)) as [f|]; [|discriminate]. destruct (parse k 10 ts) as [[e1 r1]|] eqn:E; [|discriminate].
      apply IHp in E. destruct (IHe _ _ _ _ _ H) as (ns & -> & Hb). cbn [bare names] in *. rewrite E, Hb. now rewrite app_assoc.
    + cbn [in_front] in H. destruct (parse k 10 ts) as [[e1 r1]|] eqn:E; [|discriminate].
      apply IHp in E. destruct (IHe _ _ _ _ _ H) as (ns & -> & Hb). cbn [bare names] in *. rewrite E, Hb. now rewrite app_assoc.
    + destruct (parse k 0 ts) as [[e1 [|[] r1]]|] eqn:E; try discriminate.
      apply IHp in E. destruct (IHe _ _ _ _ _ H) as (ns & -> & Hb). cbn [bare] in *. rewrite E, Hb. now rewrite app_assoc.
  - intros l a ts e r H. cbn [extend] in H.
    assert (N : forall us, Some (a, us) = Some (e, r) -> exists ns, names e = names a ++ ns /\ bare us = ns ++ bare r).
    { intros us [= <- <-]. exists []. split; [now rewrite app_nil_r|reflexivity]. }
    destruct ts as [|[] ts]; try (apply N; exact H).
    + destruct (prec o <? l)%nat; [now apply N|]. destruct (parse k (S (prec o)) ts) as [[b us]|] eqn:E; [|discriminate].
      destruct (compares o && compares_next us); [discriminate|]. apply IHp in E. destruct (IHe _ _ _ _ _ H) as (ns & Hn & Hb). exists (names b ++ ns). cbn [names bare] in *.
      rewrite Hn, E, Hb, !app_assoc. split; reflexivity.
    + destruct ts as [|[] ts]; try (apply N; exact H).
      * destruct (IHe _ _ _ _ _ H) as (ns & Hn & Hb). exists ns. auto.
      * destruct (IHe _ _ _ _ _ H) as (ns & Hn & Hb). exists ns. auto.
    + destruct ts as [|[] ts]; try (apply N; exact H). destruct (9 <? l)%nat; [now apply N|].
      destruct (IHe _ _ _ _ _ H) as (ns & Hn & Hb). exists ns. auto.
Qed.
Lemma bare_tail ts u t : u = [TClose] \/ u = [] -> bare (ts ++ u ++ [TAs; TName t]) = bare ts.
Proof.
  intros Hu.
  assert (H : forall n ts, (length ts <= n)%nat -> bare (ts ++ u ++ [TAs; TName t]) = bare ts).
  { induction n as [|n IH]; intros [|d us] Hn; cbn in Hn; try lia; try (destruct Hu; subst u; reflexivity).
    destruct d; cbn [bare app]; try (f_equal; apply IH; lia); try (apply IH; lia).
    - destruct us as [|[] us]; cbn [app] in *; try (destruct Hu; subst u; reflexivity); try (apply (IH (_ :: us)); cbn in *; lia).
      apply IH. cbn in Hn. lia.
    - destruct us as [|[] us]; cbn [app] in *; try (destruct Hu; subst u; reflexivity); try (apply (IH (_ :: us)); cbn in *; lia).
      apply IH. cbn in Hn. lia. }
  apply (H (length ts)). lia.
Qed.

(** Writing [self.] before the text changes the far left of the expression. *)
Definition before_text (opened : bool) : list token := if opened then [TOpen] else [].
Definition after_text (opened : bool) (t : bytes) : list token := (if opened then [TClose] else []) ++ [TAs; TName t].
Definition self_tokens : list token := [TName (txt "self"); TDot].
Definition self_dot (f : label) : rexpr := EField (EName (txt "self")) f.
Lemma parse_more k k' l ts e : parse k l ts = Some e -> (k <= k')%nat -> parse k' l ts = Some e.
Proof. intros H Hk. exact (proj1 (fuel_enough k) _ _ _ H _ Hk). Qed.
Lemma extend_more k k' l a ts e : extend k l a ts = Some e -> (k <= k')%nat -> extend k' l a ts = Some e.
Proof. intros H Hk. exact (proj2 (fuel_enough k) _ _ _ _ H _ Hk). Qed.
Definition leaf (t : token) : option (rexpr * label) :=
  match t with TName x => Some (EName x, LName x) | TNum n => Some (ENum n, LNum n) | _ => None end.
Lemma parse_leaf k l d a f ts e r : leaf d = Some (a, f) -> parse k l (d :: ts) = Some (e, r) ->
  exists e', parse (k + 1) l (self_tokens ++ d :: ts) = Some (e', r) /\ graft a (self_dot f) e e'.
Proof.
  intros Hd H. destruct k as [|k]; [discriminate|].
  assert (Ha : extend k l a ts = Some (e, r)) by (destruct d; try discriminate; injection Hd as <- <-; exact H).
  destruct (extend_graft _ _ _ (self_dot f) _ _ _ Ha) as (e' & H1 & H2). exists e'. split; [|exact H2].
  replace (S k + 1)%nat with (S (S k)) by lia. cbn [parse app self_tokens].
  change (extend (S k) l (EName (txt "self")) (TDot :: d :: ts) = Some (e', r)).
  destruct d; try discriminate; injection Hd as <- <-; exact H1.
Qed.
Lemma parse_all_some ts e : parse_all ts = Some e ->
  exists k, k = (2 * length ts + 2)%nat /\ parse k 0 ts = Some (e, []).
Proof.
  unfold parse_all. intros H. exists (2 * length ts + 2)%nat. split; [reflexivity|].
  destruct (parse _ 0 ts) as [[e0 [|? ?]]|]; try discriminate. now injection H as ->.
Qed.
Lemma parse_all_intro k ts e : parse k 0 ts = Some (e, []) -> (k <= 2 * length ts + 2)%nat -> parse_all ts = Some e.
Proof. unfold parse_all. intros H Hk. now rewrite (parse_more _ _ _ _ _ H Hk). Qed.
Lemma core_leaf opened d a f ts t e : leaf d = Some (a, f) ->
  parse_all (before_text opened ++ (d :: ts) ++ after_text opened t) = Some e ->
  exists e', parse_all (before_text opened ++ (self_tokens ++ d :: ts) ++ after_text opened t) = Some e' /\
    graft a (self_dot f) e e'.
Proof.
  intros Hd H. apply parse_all_some in H as (k & Hk & H). destruct opened.
  - cbn [before_text app] in H, Hk. destruct k as [|k]; [discriminate|]. cbn [parse] in H.
    destruct (parse k 0 (d :: ts ++ after_text true t)) as [[e1 [|[] r1]]|] eqn:E1; try discriminate.
    destruct (parse_leaf _ _ _ _ _ _ _ _ Hd E1) as (e2 & E2 & G2).
    destruct (extend_graft _ _ _ e2 _ _ _ H) as (e3 & E3 & G3). exists e3. split; [|exact (graft_trans _ _ _ _ _ _ G2 G3)].
    apply (parse_all_intro (S (k + 1))).
    + cbn [before_text app self_tokens parse]. cbn [app self_tokens] in E2. rewrite E2. apply (extend_more k); [exact E3|lia].
    + cbn [before_text app self_tokens length] in *. lia.
  - destruct (parse_leaf _ _ _ _ _ _ _ _ Hd H) as (e2 & E2 & G2). exists e2. split; [|exact G2].
    apply (parse_all_intro (k + 1)); [exact E2|]. cbn [before_text app self_tokens length] in *. lia.
Qed.
Lemma core_other opened ts t e : (forall d r, ts = d :: r -> leaf d = None) ->
  parse_all (before_text opened ++ ts ++ after_text opened t) = Some e ->
  parse_all (before_text opened ++ (self_tokens ++ ts) ++ after_text opened t) = None.
Proof.
  intros Hl H. apply parse_all_some in H as (k & _ & H).
  destruct (parse_all (before_text opened ++ (self_tokens ++ ts) ++ after_text opened t)) as [e'|] eqn:E; [|reflexivity].
  exfalso. apply parse_all_some in E as (k' & _ & E).
  destruct k as [|[|k]]; try discriminate; destruct k' as [|[|[|k']]]; try discriminate;
    destruct ts as [|d ts]; try (specialize (Hl d ts eq_refl); destruct d; try discriminate Hl); destruct opened; cbn in H, E;
    try discriminate; now destruct ts.
Qed.
Lemma core_names opened ts t e : parse_all (before_text opened ++ ts ++ after_text opened t) = Some e ->
  names e = bare ts.
Proof.
  unfold parse_all. destruct (parse _ _ _) as [[e0 [|? ?]]|] eqn:E; try discriminate. intros [= ->].
  apply (proj1 (parse_names _)) in E. cbn [bare] in E. rewrite app_nil_r in E. rewrite <- E.
  rewrite <- (bare_tail ts (if opened then [TClose] else []) t) by (destruct opened; auto). now destruct opened.
Qed.

(** The fuel of [parse_all] is enough. *)
Lemma fuel_bound k :
  (forall l ts e r, parse k l ts = Some (e, r) -> (length r < length ts)%nat /\ parse (2 * length ts) l ts = Some (e, r)) /\
  (forall l a ts e r, extend k l a ts = Some (e, r) -> (length r <= length ts)%nat /\ extend (2 * length ts + 1) l a ts = Some (e, r)).
Proof.
  induction k as [|k [IHp IHe]]; [split; intros; discriminate|]. split.
  - intros l ts e r H. cbn [parse] in H. destruct ts as [|[] ts]; try discriminate.
    + apply IHe in H as [H1 H2]. cbn [length]. split; [lia|].
      replace (2 * S (length ts))%nat with (S (2 * length ts + 1)) by lia. exact H2.
    + apply IHe in H as [H1 H2]. cbn [length]. split; [lia|].
      replace (2 * S (length ts))%nat with (S (2 * length ts + 1)) by lia. exact H2.
    + cbn [parse]. destruct (in_front (TOp o)) as [f|] eqn:F; [|discriminate]. destruct (parse k 10 ts) as [[e1 r1]|] eqn:E; [|discriminate].
      apply IHp in E as [E1 E2]. apply IHe in H as [H1 H2]. cbn [length] in *. split; [lia|].
      replace (2 * S (length ts))%nat with (S (2 * length ts + 1)) by lia. cbn [parse]. rewrite F.
      rewrite (parse_more _ (2 * length ts + 1) _ _ _ E2) by lia. apply (extend_more _ _ _ _ _ _ H2). lia.
    + cbn [in_front] in H. destruct (parse k 10 ts) as [[e1 r1]|] eqn:E; [|discriminate].
      apply IHp in E as [E1 E2]. apply IHe in H as [H1 H2]. cbn [length] in *. split; [lia|].
      replace (2 * S (length ts))%nat with (S (2 * length ts + 1)) by lia. cbn [parse in_front].
      rewrite (parse_more _ (2 * length ts + 1) _ _ _ E2) by lia. apply (extend_more _ _ _ _ _ _ H2). lia.
    + destruct (parse k 0 ts) as [[e1 [|[] r1]]|] eqn:E; try discriminate.
      apply IHp in E as [E1 E2]. apply IHe in H as [H1 H2]. cbn [length] in *. split; [lia|].
      replace (2 * S (length ts))%nat with (S (2 * length ts + 1)) by lia. cbn [parse].
      rewrite (parse_more _ (2 * length ts + 1) _ _ _ E2) by lia. apply (extend_more _ _ _ _ _ _ H2). lia.
  - intros l a ts e r H. cbn [extend] in H. rewrite Nat.add_1_r. cbn [extend].
    assert (N : forall us, Some (a, us) = Some (e, r) -> (length r <= length us)%nat /\ Some (a, us) = Some (e, r)).
    { intros us Hu. split; [injection Hu as _ ->; lia|exact Hu]. }
    destruct ts as [|[] ts]; try (apply N; exact H).
    + destruct (prec o <? l)%nat; [now apply N|]. destruct (parse k (S (prec o)) ts) as [[b us]|] eqn:E; [|discriminate].
      destruct (compares o && compares_next us) eqn:C; [discriminate|].
      apply IHp in E as [E1 E2]. apply IHe in H as [H1 H2]. cbn [length] in *. split; [lia|].
      rewrite (parse_more _ (2 * S (length ts)) _ _ _ E2) by lia. rewrite C. apply (extend_more _ _ _ _ _ _ H2). lia.
    + destruct ts as [|[] ts]; try (apply N; exact H); apply IHe in H as [H1 H2]; cbn [length] in *; (split; [lia|]);
        apply (extend_more _ _ _ _ _ _ H2); lia.
    + destruct ts as [|[] ts]; try (apply N; exact H). destruct (9 <? l)%nat; [now apply N|].
      apply IHe in H as [H1 H2]; cbn [length] in *; (split; [lia|]); apply (extend_more _ _ _ _ _ _ H2); lia.
Qed.
Lemma parse_all_complete k ts e : parse k 0 ts = Some (e, []) -> parse_all ts = Some e.
Proof. intros H. apply (proj1 (fuel_bound k)) in H as [_ H]. apply (parse_all_intro _ _ _ H). lia. Qed.

(** ** Meaning *)
Section Meaning.
Context {V : Type}.
Variable A : arithmetic V.

Lemma eval_missing sc e y : In y (names e) -> sc y = None -> eval A sc e = None.
Proof.
  intros Hy Hs. induction e as [n|x|e IH f|e IH t|o a IHa b IHb]; cbn in *.
  - easy.
  - destruct Hy as [->|[]]. exact Hs.
  - now rewrite (IH Hy).
  - now rewrite (IH Hy).
  - apply in_app_iff in Hy as [Hy|Hy].
    + now rewrite (IHa Hy).
    + rewrite (IHb Hy). now destruct (eval A sc a).
Qed.
Lemma eval_same sc sc' e : (forall y, In y (names e) -> sc y = sc' y) -> eval A sc e = eval A sc' e.
Proof.
  intros H. induction e as [n|x|e IH f|e IH t|o a IHa b IHb]; cbn in *.
  - reflexivity.
  - apply H. now left.
  - now rewrite (IH H).
  - now rewrite (IH H).
  - rewrite IHa, IHb; [reflexivity| |]; intros y Hy; apply H, in_app_iff; auto.
Qed.
Lemma graft_missing sc a a' e e' : graft a a' e e' -> eval A sc a' = None -> eval A sc e' = None.
Proof. induction 1; cbn; intros Hn; [exact Hn| | |]; now rewrite (IHgraft Hn). Qed.
Lemma graft_names a a' e e' : graft a a' e e' -> exists ns, names e = names a ++ ns /\ names e' = names a' ++ ns.
Proof.
  induction 1 as [|e e' f H IH|e e' t H IH|o e e' b H IH]; cbn.
  - exists []. now rewrite !app_nil_r.
  - exact IH.
  - exact IH.
  - destruct IH as (ns & -> & ->). exists (ns ++ names b). now rewrite !app_assoc.
Qed.
Lemma graft_eval sc sc' a a' e e' ns : graft a a' e e' -> names e = names a ++ ns ->
  eval A sc a = eval A sc' a' -> (forall y, In y ns -> sc y = sc' y) -> eval A sc e = eval A sc' e'.
Proof.
  intros H. revert ns. induction H as [|e e' f H IH|e e' t H IH|o e e' b H IH]; cbn; intros ns Hn Ha Hs.
  - exact Ha.
  - now rewrite (IH ns).
  - now rewrite (IH ns).
  - destruct (graft_names _ _ _ _ H) as (ms & Hm & _). rewrite Hm, <- app_assoc in Hn. apply app_inv_head in Hn. subst ns.
    rewrite (IH ms); [|exact Hm|exact Ha|].
    + rewrite (eval_same sc sc' b); [reflexivity|]. intros y Hy. apply Hs, in_app_iff. now right.
    + intros y Hy. apply Hs, in_app_iff. now left.
Qed.
End Meaning.

(** ** The two scopes *)
Section Scopes.
Context {V : Type}.
Variables (A : arithmetic V) (before after : list (bytes * V)) (self : V) (others : bytes -> option V).
Hypothesis HS : struct_value A (before ++ after) self.
Hypothesis HA : apart (before ++ after) others.
Let fields := map fst (before ++ after).

Lemma find_before x v : decoder_scope before others x = Some v -> In x fields ->
  a_get A self (LName x) = Some v.
Proof.
  unfold decoder_scope. destruct (find _ before) as [[y w]|] eqn:E.
  - apply find_some in E as [Hi Hb]. cbn in Hb. apply bytes_eqb_eq in Hb. subst y. intros [= ->] _.
    apply (sv_get _ _ _ HS). apply in_app_iff. now left.
  - intros Ho Hi. destruct HA as (_ & _ & Hn). now rewrite (Hn x Hi) in Ho.
Qed.
Lemma scope_other x : ~ In x fields -> decoder_scope before others x = others x.
Proof.
  intros Hx. unfold decoder_scope. destruct (find _ before) as [[y w]|] eqn:E; [|reflexivity].
  apply find_some in E as [Hi Hb]. cbn in Hb. apply bytes_eqb_eq in Hb. subst y. exfalso. apply Hx.
  unfold fields. rewrite map_app. apply in_app_iff. left. now apply (in_map fst) in Hi.
Qed.
Lemma self_scope : encoder_scope self others (txt "self") = Some self.
Proof. reflexivity. Qed.
Lemma encoder_field x : In x fields -> encoder_scope self others x = None.
Proof.
  intros Hx. unfold encoder_scope. destruct HA as (_ & Hs & Hn). destruct (bytes_eqb x (txt "self")) eqn:E.
  - apply bytes_eqb_eq in E. subst x. now elim Hs.
  - now apply Hn.
Qed.
Lemma encoder_other x : ~ In x fields -> decoder_scope before others x <> None ->
  encoder_scope self others x = decoder_scope before others x.
Proof.
  intros Hx. rewrite (scope_other x Hx). intros Hs. unfold encoder_scope.
  destruct (bytes_eqb x (txt "self")) eqn:E; [|reflexivity].
  apply bytes_eqb_eq in E. subst x. destruct HA as (H1 & _). now elim Hs.
Qed.
Lemma in_fields_dec (x : bytes) : In x fields \/ ~ In x fields.
Proof. destruct (in_dec (list_eq_dec Byte.byte_eq_dec) x fields); auto. Qed.
Lemma some_field (l : list bytes) : (exists y, In y l /\ In y fields) \/ forall y, In y l -> ~ In y fields.
Proof.
  induction l as [|y l [IH|IH]].
  - right. easy.
  - left. destruct IH as (z & H1 & H2). exists z. split; [now right|exact H2].
  - destruct (in_fields_dec y) as [H|H].
    + left. exists y. split; [now left|exact H].
    + right. intros z [<-|Hz]; [exact H|now apply IH].
Qed.
Lemma core_meaning opened ts t e v :
  parse_all (before_text opened ++ ts ++ after_text opened t) = Some e ->
  eval A (decoder_scope before others) e = Some v ->
  (exists x r, ts = TName x :: r /\ In x fields /\ (forall y, In y (bare r) -> ~ In y fields)) /\
    (exists e', parse_all (before_text opened ++ (self_tokens ++ ts) ++ after_text opened t) = Some e' /\
       eval A (encoder_scope self others) e' = Some v) \/
  (~ exists x r, ts = TName x :: r /\ In x fields /\ (forall y, In y (bare r) -> ~ In y fields)) /\
    (forall e', parse_all (before_text opened ++ (self_tokens ++ ts) ++ after_text opened t) = Some e' ->
       eval A (encoder_scope self others) e' = None).
Proof.
  intros HP HV. pose proof (core_names _ _ _ _ HP) as HN.
  assert (Hdef : forall y, In y (names e) -> decoder_scope before others y <> None).
  { intros y Hy Hn. rewrite (eval_missing A _ e y Hy Hn) in HV. discriminate. }
  destruct ts as [|d r].
  { right. split; [intros (x & r & ? & _); discriminate|]. intros e' He'.
    rewrite (core_other opened [] t e) in He'; [discriminate| |exact HP]. intros d r Hd. discriminate Hd. }
  destruct (leaf d) as [[a f]|] eqn:Hd.
  2:{ right. split; [intros (x & r' & [= -> ->] & _); discriminate|]. intros e' He'.
      rewrite (core_other opened (d :: r) t e) in He'; [discriminate| |exact HP]. intros d' r' [= <- <-]. exact Hd. }
  destruct (core_leaf _ _ _ _ _ _ _ Hd HP) as (e' & HP' & HG).
  destruct d as [x|n| | | | | |]; try discriminate; injection Hd as <- <-.
  - cbn [bare] in HN. destruct (graft_names _ _ _ _ HG) as (ns & Hn & Hn'). cbn in Hn, Hn'.
    rewrite Hn in HN. injection HN as ->.
    destruct (in_fields_dec x) as [Hx|Hx].
    + destruct (some_field (bare r)) as [(y & Hy & Hf)|Hnone].
      * right. split.
        -- intros (x' & r' & [= <- <-] & _ & Hno). exact (Hno y Hy Hf).
        -- intros e2 He2. rewrite HP' in He2. injection He2 as <-.
           apply (eval_missing A _ e' y); [rewrite Hn'; now right|now apply encoder_field].
      * left. split; [exists x, r; auto|]. exists e'. split; [exact HP'|]. rewrite <- HV. symmetry.
        apply (graft_eval A _ _ _ _ _ _ (bare r) HG Hn).
        -- cbn [eval self_dot]. rewrite self_scope.
           destruct (decoder_scope before others x) as [w|] eqn:Ex.
           ++ symmetry. now apply find_before.
           ++ elim (Hdef x); [rewrite Hn; now left|exact Ex].
        -- intros y Hy. symmetry. apply encoder_other; [now apply Hnone|]. apply Hdef. rewrite Hn. now right.
    + right. split; [intros (x' & r' & [= <- <-] & Hx' & _); contradiction|].
      intros e2 He2. rewrite HP' in He2. injection He2 as <-.
      apply (graft_missing A _ _ _ _ _ HG). cbn [eval self_dot]. rewrite self_scope. now apply (sv_only _ _ _ HS).
  - right. split; [intros (x' & r' & ? & _); discriminate|].
    intros e2 He2. rewrite HP' in He2. injection He2 as <-.
    apply (graft_missing A _ _ _ _ _ HG). cbn [eval self_dot]. rewrite self_scope. apply (sv_number _ _ _ HS).
Qed.
Lemma plain_meaning opened ts t e v :
  parse_all (before_text opened ++ ts ++ after_text opened t) = Some e ->
  eval A (decoder_scope before others) e = Some v ->
  (forall y, In y (bare ts) -> ~ In y fields) /\ eval A (encoder_scope self others) e = Some v \/
  (exists y, In y (bare ts) /\ In y fields) /\ eval A (encoder_scope self others) e = None.
Proof.
  intros HP HV. pose proof (core_names _ _ _ _ HP) as HN.
  destruct (some_field (bare ts)) as [(y & Hy & Hf)|Hnone].
  - right. split; [now exists y|]. apply (eval_missing A _ e y); [now rewrite HN|now apply encoder_field].
  - left. split; [exact Hnone|]. rewrite <- HV. apply eval_same. intros y Hy. apply encoder_other.
    + apply Hnone. now rewrite <- HN.
    + intros Hn. rewrite (eval_missing A _ e y Hy Hn) in HV. discriminate.
Qed.
End Scopes.

(** ** Variants *)
Definition at_most_cast (l : strength) : strength := match l with Atom => Cast | _ => l end.
(** Another first operand for a text. *)
Lemma lead l text e : reads_as l text e -> plain_expr e ->
  exists s u rest, text = s ++ rest /\ reads_as Atom s u /\
    (rest = [] \/ exists c r, rest = c :: r /\ In c (txt "+-*/%&|^<>")) /\
    forall s' u', reads_as Cast s' u' -> exists e', reads_as (at_most_cast l) (s' ++ rest) e' /\ graft u u' e e'.
Proof.
  assert (A0 : forall text e, reads_as Atom text e -> exists s u rest, text = s ++ rest /\ reads_as Atom s u /\
    (rest = [] \/ exists c r, rest = c :: r /\ In c (txt "+-*/%&|^<>")) /\
    forall s' u', reads_as Cast s' u' -> exists e', reads_as Cast (s' ++ rest) e' /\ graft u u' e e').
  { intros text0 e0 H0. exists text0, e0, []. rewrite app_nil_r. repeat split; auto.
    intros s' u' H'. exists u'. rewrite app_nil_r. split; [exact H'|constructor]. }
  intros H. induction H as [s n H|s n H|x H|s e H IH|s e x H IH Hm Hx|s e t n H IH Hm Hn|c f s e Hf H IH|s e t H IH Ht
    |s a t b o sign result left right Ho H1 IH1 H2 IH2|l l' s e Hl H IH|l s e H IH|l s e H IH]; intros HP.
  - apply A0. now constructor.
  - apply A0. now apply ra_hex.
  - apply A0. now constructor.
  - apply A0. now constructor.
  - apply A0. now constructor.
  - apply A0. now constructor.
  - destruct HP as [_ HP]. destruct Hf; destruct HP.
  - destruct HP.
  - destruct HP as (Po & Pa & Pb). destruct (IH1 Pa) as (s0 & u & rest & -> & Hu & Hr & Hx).
    assert (S : exists c r, txt sign = c :: r /\ In c (txt "+-*/%&|^<>")).
    { destruct Ho; try destruct Po; eexists; eexists; (split; [vm_compute; reflexivity|]); cbn; tauto. }
    destruct S as (c & q & S & Hc). change (list_byte_of_string sign) with (txt sign).
    exists s0, u, (rest ++ txt sign ++ t). rewrite <- app_assoc. repeat split; auto.
    + right. destruct Hr as [->|(d & r & -> & Hd)].
      * exists c, (q ++ t). rewrite S. split; [reflexivity|exact Hc].
      * exists d, (r ++ txt sign ++ t). split; [reflexivity|exact Hd].
    + intros s' u' H'. destruct (Hx s' u' H') as (e' & R & G). exists (EOp o e' b). rewrite app_assoc. split; [|now constructor].
      assert (E : at_most_cast left = left /\ at_most_cast result = result) by (destruct Ho; split; reflexivity).
      destruct E as [E ->]. rewrite E in *. exact (ra_operation _ _ _ _ _ _ _ _ _ Ho R H2).
  - destruct (IH HP) as (s0 & u & rest & -> & Hu & Hr & Hx). exists s0, u, rest. repeat split; auto.
    intros s' u' H'. destruct (Hx s' u' H') as (e' & R & G). exists e'. split; [|exact G].
    destruct Hl; try exact R; (eapply ra_tighter; [constructor|exact R]).
  - destruct (IH HP) as (s0 & u & rest & -> & Hu & Hr & Hx). exists (" "%byte :: s0), u, rest. repeat split; auto.
    now constructor.
  - destruct (IH HP) as (s0 & u & rest & -> & Hu & Hr & Hx). destruct Hr as [->|(c & r & -> & Hc)].
    + exists (s0 ++ [" "%byte]), u, []. rewrite !app_nil_r.
      split; [reflexivity|]. split; [now apply ra_after|]. split; [now left|].
      intros s' u' H'. destruct (Hx s' u' H') as (e' & R & G). rewrite app_nil_r in *. now exists e'.
    + exists s0, u, ((c :: r) ++ [" "%byte]). rewrite <- app_assoc. repeat split; auto.
      * right. exists c, (r ++ [" "%byte]). auto.
      * intros s' u' H'. destruct (Hx s' u' H') as (e' & R & G). exists e'. rewrite app_assoc. split; [now apply ra_after|exact G].
Qed.
Lemma operator_char c r vs : In c (txt "+-*/%&|^<>") -> lex [] (c :: r) = Some vs ->
  is_word c = false /\ exists o us, vs = TOp o :: us.
Proof.
  intros Hc HL.
  assert (W : is_word c = false /\ exists o, punct_token c = Some [TOp o]).
  { revert Hc. cbn. intros [<-|[<-|[<-|[<-|[<-|[<-|[<-|[<-|[<-|[<-|[]]]]]]]]]]]; (split; [reflexivity|eexists; reflexivity]). }
  destruct W as [W (o & O)]. split; [exact W|]. cbn [lex] in HL. rewrite W in HL. unfold punct in HL. rewrite O in HL.
  destruct r as [|d r]; [|destruct (punct_pair c d) as [o'|]].
  1,3: cbn [flush then_tokens] in HL; destruct (lex [] _); [|discriminate]; injection HL as <-; eauto.
  cbn [flush then_tokens] in HL. destruct (lex [] r); [|discriminate]. injection HL as <-. eauto.
Qed.
(** The first operand is determined by the text. *)
Lemma first_operand text s u rest : text = s ++ rest -> reads_as Atom s u ->
  (rest = [] \/ exists c r, rest = c :: r /\ In c (txt "+-*/%&|^<>")) -> lex [] text <> None ->
  exists ts k vs, lex [] text = Some ts /\ parse k 10 ts = Some (u, vs).
Proof.
  intros -> Hu Hr HL. destruct (lex_reads _ _ _ Hu) as (us & L & T). cbn [rank] in T.
  destruct Hr as [->|(c & r & -> & Hc)].
  - rewrite app_nil_r in *. destruct (parse_tokens _ _ _ T 10%nat [] 1%nat (u, [])) as (k & P); [lia|easy|reflexivity|].
    rewrite app_nil_r in P. exists us, k, []. auto.
  - destruct (text_ends _ _ _ Hu) as [EL _].
    assert (W : is_word c = false) by (revert Hc; cbn; intros [<-|[<-|[<-|[<-|[<-|[<-|[<-|[<-|[<-|[<-|[]]]]]]]]]]]; reflexivity).
    rewrite (lex_split s [] c r W (or_introl EL)), L in *.
    destruct (lex [] (c :: r)) as [vs|] eqn:LR; [|now cbn in HL].
    destruct (operator_char c r vs Hc LR) as (_ & o & ws & ->). pose proof (prec_left o).
    destruct (parse_tokens _ _ _ T 10%nat (TOp o :: ws) 1%nat (u, TOp o :: ws)) as (k & P); [lia|cbn; lia| |].
    { apply stops_extend; [cbn; lia|lia]. }
    exists (us ++ TOp o :: ws), k, (TOp o :: ws). auto.
Qed.
Lemma first_unique text s u rest s2 u2 rest2 : text = s ++ rest -> reads_as Atom s u ->
  (rest = [] \/ exists c r, rest = c :: r /\ In c (txt "+-*/%&|^<>")) ->
  text = s2 ++ rest2 -> reads_as Atom s2 u2 ->
  (rest2 = [] \/ exists c r, rest2 = c :: r /\ In c (txt "+-*/%&|^<>")) -> lex [] text <> None -> u = u2.
Proof.
  intros E1 U1 R1 E2 U2 R2 HL. destruct (first_operand _ _ _ _ E1 U1 R1 HL) as (ts & k & vs & L & P).
  destruct (first_operand _ _ _ _ E2 U2 R2 HL) as (ts2 & k2 & vs2 & L2 & P2). rewrite L in L2. injection L2 as <-.
  apply (parse_more _ (k + k2)) in P; [|lia]. apply (parse_more _ (k + k2)) in P2; [|lia]. congruence.
Qed.

Lemma takes_any {V} o (p q : place V) : computes o -> takes o p q = true.
Proof. now destruct o, p, q. Qed.

Section Variants.
Context {V : Type}.
Variable A : arithmetic V.
Variables (before after : list (bytes * V)) (others : bytes -> option V).
Let fields := before ++ after.
Hypothesis distinct : NoDup (map fst fields).
Hypothesis apart_names : forall x, In x (map fst fields) -> others x = None.
Let D := eval A (decoder_scope before others).
Let E := eval (with_references A) (variant_scope fields others).

Lemma find_in (l : list (bytes * V)) x v : NoDup (map fst l) -> In (x, v) l -> find (fun xv => bytes_eqb x (fst xv)) l = Some (x, v).
Proof.
  induction l as [|[y w] l IH]; intros Hd Hi; [easy|]. cbn [map fst] in Hd. apply NoDup_cons_iff in Hd as [Hn Hd].
  cbn [find fst]. destruct Hi as [[= <- <-]|Hi]; [now rewrite bytes_eqb_refl|].
  destruct (bytes_eqb x y) eqn:B; [|now apply IH]. apply bytes_eqb_eq in B. subst y.
  elim Hn. now apply (in_map fst) in Hi.
Qed.
Lemma find_not (l : list (bytes * V)) x : ~ In x (map fst l) -> find (fun xv => bytes_eqb x (fst xv)) l = None.
Proof.
  intros Hx. destruct (find _ l) as [[y w]|] eqn:F; [|reflexivity].
  apply find_some in F as [Hi Hb]. cbn in Hb. apply bytes_eqb_eq in Hb. subst y. elim Hx. now apply (in_map fst) in Hi.
Qed.
Lemma variant_name x v : D (EName x) = Some v ->
  In x (map fst fields) /\ E (EName x) = Some (Reference v) \/ ~ In x (map fst fields) /\ E (EName x) = Some (Value v).
Proof.
  unfold D, E. cbn [eval]. unfold decoder_scope, variant_scope.
  destruct (find (fun xv => bytes_eqb x (fst xv)) before) as [[y w]|] eqn:F.
  - intros [= ->]. apply find_some in F as [Hi Hb]. cbn in Hb. apply bytes_eqb_eq in Hb. subst y. left.
    assert (Hf : In (x, v) fields) by (apply in_app_iff; now left).
    split; [now apply (in_map fst) in Hf|]. now rewrite (find_in fields x v distinct Hf).
  - intros Ho. right. assert (Hx : ~ In x (map fst fields)) by (intros Hx; rewrite (apart_names x Hx) in Ho; discriminate).
    split; [exact Hx|]. rewrite (find_not _ _ Hx), Ho. reflexivity.
Qed.
Lemma variant_eval e : plain_expr e -> forall v, D e = Some v ->
  (exists x, e = EName x /\ In x (map fst fields)) /\ E e = Some (Reference v) \/
  (~ exists x, e = EName x /\ In x (map fst fields)) /\ E e = Some (Value v).
Proof.
  induction e as [n|x|e IH f|e IH t|o a IHa b IHb]; intros HP v HD.
  - right. split; [intros (x & ? & _); discriminate|]. unfold D, E in *. cbn in *. now rewrite HD.
  - destruct (variant_name x v HD) as [[Hx HE]|[Hx HE]].
    + left. split; [now exists x|exact HE].
    + right. split; [intros (y & [= <-] & Hy); contradiction|exact HE].
  - right. split; [intros (x & ? & _); discriminate|]. destruct HP as [HP Hf].
    unfold D, E in *. cbn [eval] in *. destruct (eval A _ e) as [w|] eqn:W; [|discriminate].
    destruct (IH HP w eq_refl) as [[_ ->]|[_ ->]]; cbn; rewrite HD; destruct f; try easy; reflexivity.
  - destruct HP.
  - right. split; [intros (x & ? & _); discriminate|]. destruct HP as (Po & Pa & Pb).
    unfold D, E in *. cbn [eval] in *. destruct (eval A _ a) as [w|] eqn:W; [|discriminate].
    destruct (eval A _ b) as [z|] eqn:Z; [|discriminate].
    destruct (IHa Pa w eq_refl) as [[_ ->]|[_ ->]]; destruct (IHb Pb z eq_refl) as [[_ ->]|[_ ->]]; cbn [with_references a_op target]; rewrite takes_any by exact Po; now rewrite HD.
Qed.
Lemma star_eval u e e' : graft u (EField u LStar) e e' -> plain_expr e -> forall v, D e = Some v ->
  (exists x, u = EName x /\ In x (map fst fields)) -> E e' = Some (Value v).
Proof.
  induction 1 as [|e e' f H IH|e e' t H IH|o e e' b H IH]; intros HP v HD Hu.
  - destruct (variant_eval u HP v HD) as [[_ HE]|[Hn _]]; [|contradiction]. unfold E in *. cbn [eval]. now rewrite HE.
  - destruct HP as [HP Hf]. unfold D, E in *. cbn [eval] in *. destruct (eval A _ e) as [w|] eqn:W; [|discriminate].
    rewrite (IH HP w eq_refl Hu). cbn. rewrite HD. destruct f; try easy; reflexivity.
  - destruct HP.
  - destruct HP as (Po & Pa & Pb). unfold D, E in *. cbn [eval] in *. destruct (eval A _ e) as [w|] eqn:W; [|discriminate].
    destruct (eval A _ b) as [z|] eqn:Z; [|discriminate]. rewrite (IH Pa w eq_refl Hu).
    destruct (variant_eval b Pb z Z) as [[_ HB]|[_ HB]]; unfold E in HB; rewrite HB; cbn [with_references a_op target]; rewrite takes_any by exact Po; now rewrite HD.
Qed.
Lemma graft_plain u u' e e' : graft u u' e e' -> plain_expr e -> plain_expr u.
Proof. induction 1; cbn; intros HP; try tauto. Qed.
Lemma graft_defined u u' e e' : graft u u' e e' -> forall v, D e = Some v -> exists w, D u = Some w.
Proof.
  induction 1 as [|e e' f H IH|e e' t H IH|o e e' b H IH]; intros v HD; unfold D in *; cbn [eval] in *.
  - eauto.
  - destruct (eval A _ e) as [w|]; [|discriminate]. eauto.
  - destruct (eval A _ e) as [w|]; [|discriminate]. eauto.
  - destruct (eval A _ e) as [w|]; [|discriminate]. eauto.
Qed.
End Variants.

(** ** Grammar *)
Lemma loosen l l' s e : (rank l <= rank l')%nat -> reads_as l' s e -> reads_as l s e.
Proof.
  intros H R. remember (rank l' - rank l)%nat as n eqn:En. revert l H En.
  induction n as [|n IH]; intros l H En.
  - assert (E : rank l = rank l') by lia. destruct l, l'; try discriminate E; exact R.
  - assert (N : exists m, next_tighter l m /\ rank m = S (rank l)).
    { destruct l; try (eexists; split; [constructor|reflexivity]). destruct l'; cbn in *; lia. }
    destruct N as (m & Hm & Em). apply (ra_tighter l m); [exact Hm|]. apply IH; lia.
Qed.
Lemma ra_atom s e : reads_as Atom s e -> reads_as Cast s e.
Proof. apply loosen. cbn. lia. Qed.
Lemma ra_product s e : reads_as Cast s e -> reads_as Product s e.
Proof. apply loosen. cbn. lia. Qed.
Lemma ra_sum s e : reads_as Product s e -> reads_as Sum s e.
Proof. apply loosen. cbn. lia. Qed.
(** Whatever is an expression is one by itself. *)
Lemma whole l s e : reads_as l s e -> reads_as Disjunction s e.
Proof. apply loosen. cbn. lia. Qed.

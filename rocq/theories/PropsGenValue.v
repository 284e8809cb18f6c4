(** C83: conditions, checks and changed values given as text. *)
From Coq Require Import Ascii String.
From Verif Require Import Base BaseLemmas Ints Text AttrParse GenExpr TextSpec GenExprSpec GenExprLemmas PropsExpr Source GenValue GenValueSpec Schema.
Close Scope string_scope.

(** ** Decoder *)

(** [if_expr]: the field is read if the expression is true. *)
Theorem C83_condition : forall A others before text e, reads_as Disjunction text e ->
  condition A others before text = truth (eval A (decoder_scope before others) e).
Proof. intros A others before text e H. unfold condition. now rewrite (C66_text val A _ text e H). Qed.
(** [value_decode]: the field gets the value of the expression, in which its name stands
    for what was read. *)
Theorem C83_new_value : forall A others before x w text e, reads_as Disjunction text e ->
  new_value A others before x w text = eval A (decoder_scope ((x, w) :: before) others) e.
Proof. intros A others before x w text e H. unfold new_value. now rewrite (C66_text val A _ text e H). Qed.

(** ** Checks *)
Lemma check_reads x l text e : a_name x -> compared x l text e -> reads_as l (check_code x text) e.
Proof.
  intros N H. unfold check_code. induction H as [s e H|s a t b H IH Ht|s a t b H IH Ht|s e H IH|s e H IH].
  - change (x ++ txt " != " ++ s) with (x ++ [" "%byte] ++ list_byte_of_string "!=" ++ " "%byte :: s). rewrite app_assoc.
    apply ra_operation with (left := BitOr) (right := BitOr); [constructor| |].
    + apply ra_after, (loosen BitOr Atom); [cbn; lia|now apply ra_name].
    + now apply ra_before.
  - replace (x ++ txt " != " ++ s ++ list_byte_of_string "&&" ++ t) with ((x ++ txt " != " ++ s) ++ list_byte_of_string "&&" ++ t)
      by now rewrite <- !app_assoc.
    apply ra_operation with (left := Conjunction) (right := Comparison); [constructor|exact IH|exact Ht].
  - replace (x ++ txt " != " ++ s ++ list_byte_of_string "||" ++ t) with ((x ++ txt " != " ++ s) ++ list_byte_of_string "||" ++ t)
      by now rewrite <- !app_assoc.
    apply ra_operation with (left := Disjunction) (right := Conjunction); [constructor|exact IH|exact Ht].
  - apply (ra_tighter Conjunction Comparison); [constructor|exact IH].
  - apply (ra_tighter Disjunction Conjunction); [constructor|exact IH].
Qed.
(** [check_value] without [&&], [||] and comparisons: the value is turned down if it
    differs. *)
Theorem C83_check : forall A others before x v text e, a_name x -> reads_as BitOr text e ->
  check_fails A others before x v text =
  truth (match eval A (decoder_scope ((x, v) :: before) others) e with Some w => a_op A Differs v w | None => None end).
Proof.
  intros A others before x v text e N H. unfold check_fails.
  assert (R : reads_as Disjunction (check_code x text) (EOp Differs (EName x) e)).
  { apply check_reads; [exact N|]. now apply cm_disjunction, cm_conjunction, cm_plain. }
  rewrite (C66_text val A _ _ _ R). cbn [eval]. unfold decoder_scope at 1. cbn [find fst]. now rewrite bytes_eqb_refl.
Qed.
(** With them, only the first of the operands is compared. *)
Theorem C83_check_first : forall A others before x v text e, a_name x -> compared x Disjunction text e ->
  check_fails A others before x v text = truth (eval A (decoder_scope ((x, v) :: before) others) e).
Proof.
  intros A others before x v text e N H. unfold check_fails. now rewrite (C66_text val A _ _ _ (check_reads _ _ _ _ N H)).
Qed.

Lemma check_lex x text : a_name x -> lex [] (check_code x text) = then_tokens [TName x; TOp Differs] (lex [] text).
Proof.
  intros N. unfold check_code. change (txt " != " ++ text) with (" "%byte :: "!"%byte :: "="%byte :: " "%byte :: text).
  rewrite (lex_cut x [] " "%byte _ [] eq_refl eq_refl), (lex_name x N).
  assert (E : lex [] ("!"%byte :: "="%byte :: " "%byte :: text) = then_tokens [TOp Differs] (lex [] text)).
  { change (lex [] ("!"%byte :: "="%byte :: " "%byte :: text)) with (then_tokens [TOp Differs] (lex [] (" "%byte :: text))).
    pose proof (lex_cut [] [] " "%byte text [] eq_refl eq_refl) as E. cbn [app] in E. rewrite E. cbn. now destruct (lex [] text). }
  rewrite E. now destruct (lex [] text).
Qed.
(** A comparison as [check_value] is refused, whatever follows. *)
Theorem C83_check_comparison_refuted : forall A others before x v text, a_name x -> begins_comparison text ->
  check_fails A others before x v text = None.
Proof.
  intros A others before x v text N [s a o sign t b rest Ho Hs Ht]. unfold check_fails, code_value. rewrite check_lex by exact N.
  destruct (text_ends _ _ _ Hs) as [IL _]. destruct (text_ends _ _ _ Ht) as [_ (c0 & r0 & -> & Hc)].
  destruct (lex_sign o sign _ _ _ ((c0 :: r0) ++ rest) Ho) as (E & (c & r & F & W) & _).
  { exists c0, (r0 ++ rest). now split. }
  destruct (lex_reads _ _ _ Hs) as (ts & L & T).
  replace (lex [] (s ++ list_byte_of_string sign ++ (c0 :: r0) ++ rest)) with
    (then_tokens ts (then_tokens [TOp o] (lex [] ((c0 :: r0) ++ rest)))).
  2:{ change (list_byte_of_string sign) with (txt sign). rewrite <- E, F. cbn [app].
      rewrite (lex_split s [] c (r ++ c0 :: r0 ++ rest) W (or_introl IL)), L. now destruct (lex [] (c :: _)). }
  destruct (lex [] ((c0 :: r0) ++ rest)) as [us|]; [|reflexivity]. cbn [then_tokens app].
  assert (Co : compares o = true) by now inversion Ho.
  destruct (parse_all _) as [e|] eqn:P; [|reflexivity]. exfalso.
  assert (P' : exists k, parse k 0 (TName x :: TOp Differs :: ts ++ TOp o :: us) = Some (e, [])).
  { unfold parse_all in P. destruct (parse _ 0 _) as [[e' [|]]|] eqn:Q; try discriminate. injection P as ->. eauto. }
  destruct P' as (k & P').
  destruct (parse_tokens 3 ts a T 3 (TOp o :: us) 1 (a, TOp o :: us)) as (k' & Q); [lia|cbn; unfold left_rank; rewrite Co; lia| |].
  { assert (prec o = 2)%nat as E2 by now apply Nat.eqb_eq. cbn [extend]. now rewrite E2. }
  apply (parse_more _ (S (S (k + k')))) in P'; [|lia].
  assert (P2 : match parse (k + k') 3 (ts ++ TOp o :: us) with
               | Some (b, r') => if compares Differs && compares_next r' then None else extend (k + k') 0 (EOp Differs (EName x) b) r'
               | None => None end = Some (e, [])) by exact P'.
  rewrite (parse_more _ (k + k') _ _ _ Q) in P2 by lia. cbn [compares_next] in P2. rewrite Co in P2. discriminate P2.
Qed.
(** These are all the cases. *)
Lemma compared_before x l s e : compared x l s e -> compared x l (" "%byte :: s) e.
Proof.
  induction 1 as [s e H|s a t b H IH Ht|s a t b H IH Ht|s e H IH|s e H IH].
  - now apply cm_plain, ra_before.
  - now apply (cm_and x (" "%byte :: s)).
  - now apply (cm_or x (" "%byte :: s)).
  - now apply cm_conjunction.
  - now apply cm_disjunction.
Qed.
Lemma compared_after x l s e : compared x l s e -> compared x l (s ++ [" "%byte]) e.
Proof.
  induction 1 as [s e H|s a t b H IH Ht|s a t b H IH Ht|s e H IH|s e H IH].
  - now apply cm_plain, ra_after.
  - rewrite <- !app_assoc. apply cm_and; [exact H|now apply ra_after].
  - rewrite <- !app_assoc. apply cm_or; [exact H|now apply ra_after].
  - now apply cm_conjunction.
  - now apply cm_disjunction.
Qed.
Lemma begins_more s t : begins_comparison s -> begins_comparison (s ++ t).
Proof. intros [s1 a o sign t1 b rest Ho Hs Ht]. rewrite <- !app_assoc. now apply bc_sign with (a := a) (o := o) (b := b). Qed.
Lemma begins_before s : begins_comparison s -> begins_comparison (" "%byte :: s).
Proof.
  intros [s1 a o sign t1 b rest Ho Hs Ht]. change (" "%byte :: s1 ++ ?r) with ((" "%byte :: s1) ++ r).
  apply bc_sign with (a := a) (o := o) (b := b); [exact Ho|now apply ra_before|exact Ht].
Qed.
Theorem C83_check_cases : forall x text e, reads_as Disjunction text e ->
  (exists e', compared x Disjunction text e') \/ begins_comparison text.
Proof.
  intros x.
  assert (G : forall l s e, reads_as l s e ->
    match l with
    | Disjunction | Conjunction | Comparison => (exists e', compared x l s e') \/ begins_comparison s
    | _ => True
    end).
  2:{ intros text e H. exact (G _ _ _ H). }
  induction 1 as [| | | | | | | |s a t b o sign result left right Ho Hs IHs Ht IHt|l l' s e Hl Hs IH|l s e Hs IH|l s e Hs IH]; try exact Logic.I.
  - inversion Ho; subst; try exact Logic.I.
    + destruct IHs as [(e' & H)|H]; [left; eexists; eapply cm_or; eassumption|right; now apply begins_more].
    + destruct IHs as [(e' & H)|H]; [left; eexists; eapply cm_and; eassumption|right; now apply begins_more].
    + right. rewrite <- (app_nil_r t). eapply bc_sign; [exact Ho|exact Hs|exact Ht].
    + right. rewrite <- (app_nil_r t). eapply bc_sign; [exact Ho|exact Hs|exact Ht].
    + right. rewrite <- (app_nil_r t). eapply bc_sign; [exact Ho|exact Hs|exact Ht].
    + right. rewrite <- (app_nil_r t). eapply bc_sign; [exact Ho|exact Hs|exact Ht].
    + right. rewrite <- (app_nil_r t). eapply bc_sign; [exact Ho|exact Hs|exact Ht].
    + right. rewrite <- (app_nil_r t). eapply bc_sign; [exact Ho|exact Hs|exact Ht].
  - inversion Hl; subst; try exact Logic.I.
    + destruct IH as [(e' & H)|H]; [left; exists e'; now apply cm_disjunction|now right].
    + destruct IH as [(e' & H)|H]; [left; exists e'; now apply cm_conjunction|now right].
    + left. eexists. eapply cm_plain; eassumption.
  - destruct l; try exact Logic.I; (destruct IH as [(e' & H)|H]; [left; exists e'; now apply compared_before|right; now apply begins_before]).
  - destruct l; try exact Logic.I; (destruct IH as [(e' & H)|H]; [left; exists e'; now apply compared_after|right; now apply begins_more]).
Qed.

(** ** Encoders *)
Section Written.
Variables (A : arithmetic val) (others : bytes -> option val) (fields : list (bytes * val)).
Hypothesis distinct : NoDup (map fst fields).
Hypothesis HA : apart fields others.
Let R := with_references (with_self A).

Lemma decoder_in k v : In (k, v) fields -> decoder_scope fields others k = Some v.
Proof. intros H. unfold decoder_scope. now rewrite (find_in fields k v distinct H). Qed.
Lemma decoder_out k : ~ In k (map fst fields) -> decoder_scope fields others k = others k.
Proof. intros H. unfold decoder_scope. now rewrite (find_not fields k H). Qed.
Section Scope.
Variables (in_struct : bool) (own : bytes -> Prop) (scope : bytes -> option (place thing)).
Hypothesis Sown : forall k, own k -> exists v, In (k, v) fields /\ scope k = Some (Reference (Held v)).
Hypothesis Sself : in_struct = true -> scope (list_byte_of_string "self") = Some (Reference (Self_ fields)).
Hypothesis Sout : forall k, ~ In k (map fst fields) -> k <> list_byte_of_string "self" -> scope k = option_map Value (held_all others k).
(** What names fields and nothing else is a reference, everything else a value. *)
Definition place_for (e : rexpr) (v : thing) (p : place thing) : Prop :=
  a_reference own e /\ p = Reference v \/ ~ a_reference own e /\ p = Value v.
Lemma rewritten_value e e' : put (map fst fields) in_struct own e e' -> forall w, eval A (decoder_scope fields others) e = Some w ->
  exists p, eval R scope e' = Some p /\ place_for e' (Held w) p.
Proof.
  intros HT. destruct HA as (HA1 & HA2 & HA3).
  assert (NR : forall e, (forall k, e <> EName k) -> ~ a_reference own e) by (intros u Hu (k & -> & _); now apply (Hu k)).
  assert (TA : forall e v p, place_for e v p -> target p = v) by (intros u v p [[_ ->]|[_ ->]]; reflexivity).
  induction HT as [n|k Hs Hk|k Hk|k Hk|k Hk|e e' f _ IH Hf|e e' t _ IH Hn|o a a' b b' _ IHa _ IHb Ho]; intros w HE; cbn [eval] in *.
  - exists (Value (Held w)). split; [unfold R; cbn; now rewrite HE|]. right. split; [now apply NR|reflexivity].
  - exists (Value (Held w)). split; [|right; split; [now apply NR|reflexivity]]. rewrite (Sself Hs). unfold R. cbn [with_references a_get target with_self].
    apply in_map_iff in Hk as ([k' u] & Ek & Hk). cbn [fst] in Ek. subst k'.
    rewrite (decoder_in _ _ Hk) in HE. injection HE as <-. now rewrite (find_in fields k u distinct Hk).
  - destruct (Sown k Hk) as (v & Hx & E). rewrite (decoder_in _ _ Hx) in HE. injection HE as <-.
    exists (Reference (Held v)). split; [exact E|]. left. split; [now exists k|reflexivity].
  - destruct (Sown k Hk) as (v & Hx & E). rewrite (decoder_in _ _ Hx) in HE. injection HE as <-.
    exists (Value (Held v)). rewrite E. split; [reflexivity|]. right. split; [now apply NR|reflexivity].
  - rewrite decoder_out in HE by exact Hk. exists (Value (Held w)). rewrite Sout; [|exact Hk|].
    + unfold held_all. rewrite HE. split; [reflexivity|]. right. split; [|reflexivity].
      intros (k' & [= <-] & Ho). destruct (Sown k Ho) as (v & Hx & _). elim Hk. now apply (in_map fst) in Hx.
    + intros ->. pose proof (eq_trans (eq_sym HE) HA1). discriminate.
  - destruct (eval A _ e) as [u|]; [|discriminate]. destruct (IH u eq_refl) as (p & -> & Hp).
    exists (Value (Held w)). split; [|right; split; [now apply NR|reflexivity]].
    assert (E : a_get R p f = option_map Value (a_get (with_self A) (target p) f)).
    { destruct f; [reflexivity|reflexivity|congruence|reflexivity|reflexivity]. }
    rewrite E, (TA _ _ _ Hp). cbn. now rewrite HE.
  - destruct (eval A _ e) as [u|]; [|discriminate]. destruct (IH u eq_refl) as (p & -> & [[Hr _]|[_ ->]]); [contradiction|].
    exists (Value (Held w)). split; [unfold R; cbn; now rewrite HE|]. right. split; [now apply NR|reflexivity].
  - destruct (eval A _ a) as [u|]; [|discriminate]. destruct (eval A _ b) as [u'|]; [|discriminate].
    destruct (IHa u eq_refl) as (p & -> & Hp). destruct (IHb u' eq_refl) as (q & -> & Hq).
    exists (Value (Held w)). split; [|right; split; [now apply NR|reflexivity]].
    assert (T : takes o p q = true).
    { destruct Ho as [Ho|[[Na Nb]|[(sign & Ho) [Ra Rb]]]]; [now apply takes_any| |].
      - destruct Hp as [[Hp _]|[_ ->]]; [contradiction|]. destruct Hq as [[Hq _]|[_ ->]]; [contradiction|]. now destruct o.
      - destruct Hp as [[_ ->]|[Hp _]]; [|contradiction]. destruct Hq as [[_ ->]|[Hq _]]; [|contradiction]. now inversion Ho. }
    unfold R. cbn [with_references a_op]. rewrite T, (TA _ _ _ Hp), (TA _ _ _ Hq). cbn. now rewrite HE.
Qed.
End Scope.
(** The scope of the field with the number [i], if the variables of earlier ones are [l]. *)
Definition scope_for (in_struct : bool) (scope : locals -> bytes -> option (place thing)) (own : nat -> bytes -> bytes -> Prop)
                     (i : nat) (x : bytes) (v : val) (l : locals) : Prop :=
  let sc := scope ((x, Reference (Held v)) :: l) in
  (forall k, own i x k -> exists v, In (k, v) fields /\ sc k = Some (Reference (Held v))) /\
  (in_struct = true -> sc (list_byte_of_string "self") = Some (Reference (Self_ fields))) /\
  (forall k, ~ In k (map fst fields) -> k <> list_byte_of_string "self" -> sc k = option_map Value (held_all others k)).
Lemma written_all in_struct scope own fs : forall i l vs ws done,
  (forall k p, In (k, p) l <-> exists text, In (k, Some text) done /\ In (k, p) l) -> length done = i ->
  (forall j x o v l', nth_error fs j = Some (x, o) -> nth_error vs j = Some v ->
     (forall k p, In (k, p) l' -> exists text, In (k, Some text) (done ++ firstn j fs)) -> scope_for in_struct scope own (i + j) x v l') ->
  length vs = length fs -> length ws = length fs ->
  (forall j x o v w, nth_error fs j = Some (x, o) -> nth_error vs j = Some v -> nth_error ws j = Some w ->
     to_write A others fields in_struct (own (i + j)%nat x) o v w) ->
  written A scope l fs vs = Some ws.
Proof.
  induction fs as [|[x o] fs IH]; intros i l vs ws done Hl Hd HV LV LW H; destruct vs as [|v vs], ws as [|w ws]; try discriminate; [reflexivity|].
  cbn [written]. pose proof (H 0%nat x o v w eq_refl eq_refl eq_refl) as H0. rewrite Nat.add_0_r in H0.
  destruct o as [text|]; cbn [to_write] in H0.
  - destruct H0 as (e & e' & HR & HT & HE). unfold rewrite_field. rewrite (C66_text _ _ _ _ _ HR).
    destruct (HV 0%nat x (Some text) v l eq_refl eq_refl) as (S1 & S2 & S3).
    { intros k p Hk. apply Hl in Hk as (t & Hk & _). exists t. cbn. now rewrite app_nil_r. }
    rewrite Nat.add_0_r in S1.
    destruct (rewritten_value in_struct (own i x) _ S1 S2 S3 e e' HT w HE) as (p & E & Hp). fold R. rewrite E.
    assert (Ep : held_value (Some p) = Some w) by (destruct Hp as [[_ ->]|[_ ->]]; reflexivity).
    rewrite Ep, (IH (S i) ((x, p) :: l) vs ws (done ++ [(x, Some text)])); [reflexivity| | | |now injection LV|now injection LW|].
    + intros k q. split; [|now intros (t & _ & Hk)]. intros [[= <- <-]|Hk].
      * exists text. split; [apply in_app_iff; right; now left|now left].
      * pose proof Hk as Hk'. apply Hl in Hk' as (t & Hk' & _). exists t. split; [apply in_app_iff; now left|now right].
    + rewrite app_length, Hd. cbn. lia.
    + intros j x' o' v' l' Hj Hv' Hl'. replace (S i + j)%nat with (i + S j)%nat by lia. apply (HV (S j) x' o'); [exact Hj|exact Hv'|].
      intros k q Hk. destruct (Hl' k q Hk) as (t & Ht). exists t. rewrite <- app_assoc in Ht. exact Ht.
    + intros j x' o' v' w' Hj Hv' Hw'. replace (S i + j)%nat with (i + S j)%nat by lia. now apply (H (S j)).
  - subst w. rewrite (IH (S i) l vs ws (done ++ [(x, None)])); [reflexivity| | | |now injection LV|now injection LW|].
    + intros k q. split; [|now intros (t & _ & Hk)]. intros Hk.
      pose proof Hk as Hk'. apply Hl in Hk' as (t & Hk' & _). exists t. split; [apply in_app_iff; now left|exact Hk].
    + rewrite app_length, Hd. cbn. lia.
    + intros j x' o' v' l' Hj Hv' Hl'. replace (S i + j)%nat with (i + S j)%nat by lia. apply (HV (S j) x' o'); [exact Hj|exact Hv'|].
      intros k q Hk. destruct (Hl' k q Hk) as (t & Ht). exists t. rewrite <- app_assoc in Ht. exact Ht.
    + intros j x' o' v' w' Hj Hv' Hw'. replace (S i + j)%nat with (i + S j)%nat by lia. now apply (H (S j)).
Qed.
End Written.

Lemma paired_names (fs : list (bytes * option bytes)) : forall vs : list val, length vs = length fs ->
  map fst (combine (map fst fs) vs) = map fst fs.
Proof. induction fs as [|f fs IH]; intros [|v vs]; try discriminate; [reflexivity|]. intros [= LV]. cbn. f_equal. now apply IH. Qed.
Lemma paired_nth i : forall (fs : list (bytes * option bytes)) (vs : list val) x o v, nth_error fs i = Some (x, o) ->
  nth_error vs i = Some v -> nth_error (combine (map fst fs) vs) i = Some (x, v).
Proof.
  induction i as [|i IH]; intros [|f fs] [|v' vs] x o v; cbn; try discriminate.
  - now intros [= ->] [= ->].
  - apply IH.
Qed.
Lemma not_local (l : locals) k : (forall p, ~ In (k, p) l) -> find (fun xp : bytes * place thing => bytes_eqb k (fst xp)) l = None.
Proof.
  intros H. apply find_not. intros Hk. apply in_map_iff in Hk as ([k' p] & E & Hk). cbn in E. subst k'. now apply (H p).
Qed.
(** For each field the encoder of a struct writes the value of its [value_encode], if that
    names the other fields [self.k]. *)
Theorem C83_struct : forall A others fs vs ws, let fields := combine (map fst fs) vs in
  NoDup (map fst fs) -> length vs = length fs -> length ws = length fs -> apart fields others ->
  (forall i x o v w, nth_error fs i = Some (x, o) -> nth_error vs i = Some v -> nth_error ws i = Some w ->
     to_write A others fields true (eq x) o v w) ->
  struct_written A others fs vs = Some ws.
Proof.
  intros A others fs vs ws fields HD LV LW HA H. unfold struct_written. fold fields.
  assert (Ef : map fst fields = map fst fs) by now apply paired_names.
  apply (written_all A others fields) with (in_struct := true) (own := fun _ x => eq x) (i := 0%nat) (done := []); try assumption.
  - now rewrite Ef.
  - intros k p. split; [intros []|now intros (t & _ & Hk)].
  - reflexivity.
  - intros j x o v l Hj Hv Hl. pose proof (paired_nth j fs vs x o v Hj Hv) as Hx. apply nth_error_In in Hx. fold fields in Hx.
    destruct HA as (HA1 & HA2 & HA3). cbn [app] in Hl.
    assert (In_l : forall k p, In (k, p) l -> In k (map fst fields)).
    { intros k p Hk. destruct (Hl k p Hk) as (t & Ht). rewrite Ef. rewrite <- (firstn_skipn j fs), map_app. apply in_app_iff. left.
      now apply (in_map fst) in Ht. }
    split; [|split].
    + intros k <-. exists v. split; [exact Hx|]. unfold struct_scope. cbn [find fst]. now rewrite bytes_eqb_refl.
    + intros _. unfold struct_scope. cbn [find fst]. destruct (bytes_eqb (list_byte_of_string "self") x) eqn:B.
      { apply bytes_eqb_eq in B. elim HA2. rewrite B. now apply (in_map fst) in Hx. }
      rewrite not_local by (intros p Hp; apply HA2; eapply In_l, Hp). reflexivity.
    + intros k Hk Hs. unfold struct_scope. cbn [find fst]. destruct (bytes_eqb k x) eqn:B.
      { apply bytes_eqb_eq in B. subst k. elim Hk. now apply (in_map fst) in Hx. }
      rewrite not_local by (intros p Hp; apply Hk; eapply In_l, Hp).
      destruct (bytes_eqb k (txt "self")) eqn:B'; [apply bytes_eqb_eq in B'; contradiction|reflexivity].
Qed.
(** That of a variant, if it names no earlier field that has a [value_encode]. *)
Theorem C83_variant : forall A others fs vs ws, let fields := combine (map fst fs) vs in
  NoDup (map fst fs) -> length vs = length fs -> length ws = length fs -> apart fields others ->
  (forall i x o v w, nth_error fs i = Some (x, o) -> nth_error vs i = Some v -> nth_error ws i = Some w ->
     to_write A others fields false (fun k => In k (map fst fs) /\ ~ rewritten_before fs i k) o v w) ->
  variant_written A others fs vs = Some ws.
Proof.
  intros A others fs vs ws fields HD LV LW HA H. unfold variant_written. fold fields.
  assert (Ef : map fst fields = map fst fs) by now apply paired_names.
  apply (written_all A others fields) with (in_struct := false) (own := fun i _ k => In k (map fst fs) /\ ~ rewritten_before fs i k)
    (i := 0%nat) (done := []); try assumption.
  - now rewrite Ef.
  - intros k p. split; [intros []|now intros (t & _ & Hk)].
  - reflexivity.
  - intros j x o v l Hj Hv Hl. pose proof (paired_nth j fs vs x o v Hj Hv) as Hx. apply nth_error_In in Hx. fold fields in Hx.
    destruct HA as (HA1 & HA2 & HA3). cbn [app] in Hl. cbn [Nat.add].
    assert (HF : forall k u, In (k, u) fields -> find (fun xv => bytes_eqb k (fst xv)) (held fields) = Some (k, Held u)).
    { intros k u Hk. apply find_in; [unfold held; rewrite map_map; change (NoDup (map fst fields)); now rewrite Ef|].
      unfold held. apply in_map_iff. now exists (k, u). }
    split; [|split; [discriminate|]].
    + intros k [Hk Hn]. rewrite <- Ef in Hk. apply in_map_iff in Hk as ([k' u] & E & Hk). cbn in E. subst k'. exists u. split; [exact Hk|].
      unfold bound_scope. cbn [find fst]. destruct (bytes_eqb k x) eqn:B.
      * apply bytes_eqb_eq in B. subst k. do 3 f_equal.
        assert (D : NoDup (map fst fields)) by now rewrite Ef.
        pose proof (find_in fields x u D Hk) as E1. rewrite (find_in fields x v D Hx) in E1. now injection E1.
      * rewrite not_local. { unfold variant_scope. now rewrite (HF k u Hk). }
        intros p Hp. apply Hn. exact (Hl k p Hp).
    + intros k Hk Hs. unfold bound_scope. cbn [find fst]. destruct (bytes_eqb k x) eqn:B.
      { apply bytes_eqb_eq in B. subst k. elim Hk. now apply (in_map fst) in Hx. }
      rewrite not_local.
      2:{ intros p Hp. destruct (Hl k p Hp) as (t & Ht). apply Hk. rewrite Ef, <- (firstn_skipn j fs), map_app. apply in_app_iff. left.
          now apply (in_map fst) in Ht. }
      unfold variant_scope. rewrite find_not; [reflexivity|]. unfold held. rewrite map_map. exact Hk.
Qed.
(** A field that is mentioned by its bare name makes the encoder fail to compile, unless it
    has been left behind by a [value_encode] of its own. *)
Theorem C83_other_field_refuted : forall A others self l x v text e y, reads_as Disjunction text e ->
  mentions e y -> y <> x -> ~ In y (map fst l) -> y <> list_byte_of_string "self" -> others y = None ->
  rewrite_field A (struct_scope self others) l x v text = None.
Proof.
  intros A others self l x v text e y HR HM Hx Hl Hs Ho. unfold rewrite_field. rewrite (C66_text _ _ _ _ _ HR).
  apply (eval_missing _ _ e y).
  - revert HM. clear. induction e as [|z|e IH f|e IH t|o a IHa b IHb]; cbn; intros HM; try easy; [now left|now apply IH|now apply IH|].
    apply in_app_iff. destruct HM; [left|right]; auto.
  - unfold struct_scope. cbn [find fst]. destruct (bytes_eqb y x) eqn:B; [apply bytes_eqb_eq in B; contradiction|].
    rewrite (find_not l y Hl). destruct (bytes_eqb y (txt "self")) eqn:B'; [apply bytes_eqb_eq in B'; contradiction|].
    unfold held_all. now rewrite Ho.
Qed.
(** In the encoder the name of the field is a reference: a text that compares it with a number,
    or with anything that is a value, and one that joins it with [&&] or [||], does not compile,
    although it does in the decoder. *)
Theorem C83_compare_refuted : forall A others self l x v text o b, reads_as Disjunction text (EOp o (EName x) b) ->
  In o [AndAlso; OrElse] \/
  In o [IsEqual; Differs; Less; Greater; AtMost; AtLeast] /\ ((exists n, b = ENum n) \/ (exists c d t, b = EOp c d t) \/ exists d t, b = ECast d t) ->
  rewrite_field A (struct_scope self others) l x v text = None /\ forall fields, rewrite_field A (bound_scope fields others) l x v text = None.
Proof.
  intros A others self l x v text o b R H. unfold rewrite_field. rewrite (C66_text _ _ _ _ _ R).
  assert (G : forall sc : bytes -> option (place thing), sc x = Some (Reference (Held v)) -> eval (with_references (with_self A)) sc (EOp o (EName x) b) = None).
  { intros sc E. cbn [eval]. rewrite E. destruct H as [O|[O B]].
    - destruct (eval _ sc b) as [q|]; [|reflexivity]. cbn [with_references a_op]. destruct O as [<-|[<-|[]]]; destruct q; reflexivity.
    - assert (V : forall q, eval (with_references (with_self A)) sc b = Some q -> exists w, q = Value w).
      { intros q. destruct B as [(n & ->)|[(c & d & t & ->)|(d & t & ->)]]; cbn [eval].
        - cbn [with_references a_num]. destruct (a_num _ n); [intros [= <-]; eauto|discriminate].
        - destruct (eval _ sc d) as [q1|]; [|discriminate]. destruct (eval _ sc t) as [q2|]; [|discriminate]. cbn [with_references a_op].
          destruct (takes c q1 q2); [|discriminate]. destruct (a_op _ _ _ _); [intros [= <-]; eauto|discriminate].
        - destruct (eval _ sc d) as [[w|w]|]; [|discriminate|discriminate]. cbn [with_references a_cast]. destruct (a_cast _ _ _); [intros [= <-]; eauto|discriminate]. }
      destruct (eval _ sc b) as [q|]; [|reflexivity]. destruct (V q eq_refl) as (w & ->). cbn [with_references a_op].
      destruct O as [<-|[<-|[<-|[<-|[<-|[<-|[]]]]]]]; reflexivity. }
  split; [|intros fields; rewrite (C66_text _ _ _ _ _ R)]; apply G; [unfold struct_scope|unfold bound_scope]; cbn [find fst]; now rewrite bytes_eqb_refl.
Qed.

(** ** Pairs of [value_decode] and [value_encode] *)
Section Pairs.
Variables (bits : N) (others : bytes -> option val) (x : bytes).
Hypothesis no_own : others x = None.
Let M := machine bits.
(** What is read for [w], and what is written for [v], whatever the other fields are. *)
Definition reads_to (text : bytes) (w v : Z) : Prop :=
  forall before, new_value M others before x (VInt w) text = Some (VInt v).
Definition writes_to (text : bytes) (v w : Z) : Prop :=
  forall self l, held_value (rewrite_field M (struct_scope self others) l x (VInt v) text) = Some (VInt w).
Lemma number_read k : k < 2 ^ bits -> a_num M k = Some (VInt (Z.of_N k)).
Proof. intros H. apply N.ltb_lt in H. unfold M, machine. cbn [a_num]. now rewrite H. Qed.
Lemma read_op text o k w : reads_as Disjunction text (EOp o (EName x) (ENum k)) -> k < 2 ^ bits -> forall v,
  reads_to text w v <-> a_op M o (VInt w) (VInt (Z.of_N k)) = Some (VInt v).
Proof.
  intros H Hk v. unfold reads_to.
  assert (E : forall before, new_value M others before x (VInt w) text = a_op M o (VInt w) (VInt (Z.of_N k))).
  { intros before. rewrite (C83_new_value _ _ _ _ _ _ _ H). cbn [eval]. unfold decoder_scope. cbn [find fst]. rewrite bytes_eqb_refl.
    now rewrite (number_read k Hk). }
  split; [intros F; now rewrite <- (E [])|intros F before; now rewrite E].
Qed.
Lemma write_op text o k v : reads_as Disjunction text (EOp o (EName x) (ENum k)) -> k < 2 ^ bits -> computes o -> forall w,
  writes_to text v w <-> a_op M o (VInt v) (VInt (Z.of_N k)) = Some (VInt w).
Proof.
  intros H Hk Ho w. unfold writes_to.
  assert (E : forall self l, held_value (rewrite_field M (struct_scope self others) l x (VInt v) text) = a_op M o (VInt v) (VInt (Z.of_N k))).
  { intros self l. unfold rewrite_field. rewrite (C66_text _ _ _ _ _ H). cbn [eval]. unfold struct_scope. cbn [find fst]. rewrite bytes_eqb_refl.
    cbn [with_references with_self a_num a_op]. rewrite (number_read k Hk). cbn [option_map].
    rewrite takes_any by exact Ho. cbn [target]. now destruct (a_op M o (VInt v) (VInt (Z.of_N k))) as [[]|]. }
  split; [intros F; now rewrite <- (E [] [])|intros F self l; now rewrite E].
Qed.
End Pairs.

Lemma scale_down z q a : (0 < q -> 0 <= a < z -> 0 <= a / q < z /\ a / q * q <= a)%Z.
Proof.
  intros Hq Ha. pose proof (Z.mul_div_le a q Hq) as H. assert (0 <= a / q)%Z by (apply Z.div_pos; lia). rewrite Z.mul_comm. nia.
Qed.
Lemma scale_back z q w : (0 < q -> 0 < z -> w = ((w * q) mod z) / q -> w * q < z)%Z.
Proof.
  intros Hq Hz E. pose proof (Z.mod_pos_bound (w * q) z Hz) as B. pose proof (Z.mul_div_le ((w * q) mod z) q Hq) as H.
  rewrite <- E in H. rewrite Z.mul_comm in H. lia.
Qed.
(** [x * k] and [x / k]: a value comes back if it is a multiple of [k], bytes come back if
    the product is a number of the type. *)
Theorem C83_scale : forall bits others x k decode encode v w, 0 < k < 2 ^ bits ->
  reads_as Disjunction decode (EOp Times (EName x) (ENum k)) -> reads_as Disjunction encode (EOp Divide (EName x) (ENum k)) ->
  ranges bits v -> ranges bits w ->
  (exists u, writes_to bits others x encode v u /\ ranges bits u /\
     (reads_to bits others x decode u v <-> (Z.of_N k | v)%Z)) /\
  (exists u, reads_to bits others x decode w u /\ ranges bits u /\
     (writes_to bits others x encode u w <-> (w * Z.of_N k < 2 ^ Z.of_N bits)%Z)).
Proof.
  intros bits others x k decode encode v w Hk HD HE Hv Hw.
  assert (E2 : Z.of_N (2 ^ bits) = (2 ^ Z.of_N bits)%Z) by (rewrite N2Z.inj_pow; reflexivity).
  set (z := (2 ^ Z.of_N bits)%Z) in *. set (q := Z.of_N k) in *.
  assert (Hq : (0 < q < z)%Z) by (unfold q; rewrite <- E2; lia). assert (Hz : (0 < z)%Z) by lia. unfold ranges in *. fold z in Hv, Hw |- *.
  assert (WR : forall v w, writes_to bits others x encode v w <-> w = (v / q)%Z).
  { intros a b. rewrite (write_op bits others x encode Divide k a HE (proj2 Hk) Logic.I). cbn. fold q.
    destruct (q =? 0)%Z eqn:B; [apply Z.eqb_eq in B; lia|]. split; [now intros [= ->]|now intros ->]. }
  assert (RD : forall w v, reads_to bits others x decode w v <-> v = ((w * q) mod z)%Z).
  { intros a b. rewrite (read_op bits others x decode Times k a HD (proj2 Hk)). cbn [machine a_op]. fold q. rewrite E2.
    split; [now intros [= ->]|now intros ->]. }
  assert (L : forall a, (0 <= a < z -> 0 <= a / q < z /\ a / q * q <= a)%Z).
  { intros a Ha. apply (scale_down z q a); lia. }
  split.
  - exists (v / q)%Z. split; [now apply WR|]. destruct (L v Hv) as [L1 L2]. split; [exact L1|]. rewrite RD.
    rewrite Z.mod_small by nia. split; [intros E; exists (v / q)%Z; exact E|].
    intros [c ->]. rewrite Z.div_mul by lia. reflexivity.
  - exists ((w * q) mod z)%Z. split; [now apply RD|]. split; [apply Z.mod_pos_bound; lia|]. rewrite WR. split.
    + intros E. apply (scale_back z q w); [apply Hq|exact Hz|exact E].
    + intros G. rewrite Z.mod_small by nia. now rewrite Z.div_mul by lia.
Qed.
(** The same for [x << k] and [x >> k]. *)
Theorem C83_shift : forall bits others x k decode encode v w, k < bits ->
  reads_as Disjunction decode (EOp ShiftLeft (EName x) (ENum k)) -> reads_as Disjunction encode (EOp ShiftRight (EName x) (ENum k)) ->
  ranges bits v -> ranges bits w ->
  (exists u, writes_to bits others x encode v u /\ ranges bits u /\
     (reads_to bits others x decode u v <-> (2 ^ Z.of_N k | v)%Z)) /\
  (exists u, reads_to bits others x decode w u /\ ranges bits u /\
     (writes_to bits others x encode u w <-> (w * 2 ^ Z.of_N k < 2 ^ Z.of_N bits)%Z)).
Proof.
  intros bits others x k decode encode v w Hk HD HE Hv Hw.
  assert (E2 : Z.of_N (2 ^ bits) = (2 ^ Z.of_N bits)%Z) by (rewrite N2Z.inj_pow; reflexivity).
  assert (Hkb : k < 2 ^ bits) by (pose proof (N.pow_gt_lin_r 2 bits eq_refl); lia).
  assert (Hq : (0 < 2 ^ Z.of_N k < 2 ^ Z.of_N bits)%Z) by (split; [apply Z.pow_pos_nonneg; lia|apply Z.pow_lt_mono_r; lia]).
  set (z := (2 ^ Z.of_N bits)%Z) in *. set (q := (2 ^ Z.of_N k)%Z) in *.
  assert (Hz : (0 < z)%Z) by lia. unfold ranges in *. fold z in Hv, Hw |- *.
  assert (S : ((0 <=? Z.of_N k) && (Z.of_N k <? Z.of_N bits))%Z = true) by (apply andb_true_iff; split; [apply Z.leb_le|apply Z.ltb_lt]; lia).
  assert (WR : forall v w, writes_to bits others x encode v w <-> w = (v / q)%Z).
  { intros a b. rewrite (write_op bits others x encode ShiftRight k a HE Hkb Logic.I). cbn [machine a_op]. rewrite S.
    rewrite Z.shiftr_div_pow2 by lia. fold q. split; [now intros [= ->]|now intros ->]. }
  assert (RD : forall w v, reads_to bits others x decode w v <-> v = ((w * q) mod z)%Z).
  { intros a b. rewrite (read_op bits others x decode ShiftLeft k a HD Hkb). cbn [machine a_op]. rewrite S, E2.
    rewrite Z.shiftl_mul_pow2 by lia. fold q. split; [now intros [= ->]|now intros ->]. }
  assert (L : forall a, (0 <= a < z -> 0 <= a / q < z /\ a / q * q <= a)%Z).
  { intros a Ha. apply (scale_down z q a); lia. }
  split.
  - exists (v / q)%Z. split; [now apply WR|]. destruct (L v Hv) as [L1 L2]. split; [exact L1|]. rewrite RD.
    rewrite Z.mod_small by nia. split; [intros E; exists (v / q)%Z; exact E|].
    intros [c ->]. rewrite Z.div_mul by lia. reflexivity.
  - exists ((w * q) mod z)%Z. split; [now apply RD|]. split; [apply Z.mod_pos_bound; lia|]. rewrite WR. split.
    + intros E. apply (scale_back z q w); [apply Hq|exact Hz|exact E].
    + intros G. rewrite Z.mod_small by nia. now rewrite Z.div_mul by lia.
Qed.
(** [x + k] and [x - k] lose nothing. *)
Theorem C83_offset : forall bits others x k decode encode v w, k < 2 ^ bits ->
  reads_as Disjunction decode (EOp Plus (EName x) (ENum k)) -> reads_as Disjunction encode (EOp Minus (EName x) (ENum k)) ->
  ranges bits v -> ranges bits w ->
  (writes_to bits others x encode v w <-> reads_to bits others x decode w v) /\ exists u, ranges bits u /\ writes_to bits others x encode v u.
Proof.
  intros bits others x k decode encode v w Hk HD HE Hv Hw.
  assert (E2 : Z.of_N (2 ^ bits) = (2 ^ Z.of_N bits)%Z) by (rewrite N2Z.inj_pow; reflexivity).
  set (z := (2 ^ Z.of_N bits)%Z) in *. set (q := Z.of_N k) in *. unfold ranges in *. fold z in Hv, Hw |- *.
  assert (WR : forall v w, writes_to bits others x encode v w <-> w = ((v - q) mod z)%Z).
  { intros a b. rewrite (write_op bits others x encode Minus k a HE Hk Logic.I). cbn [machine a_op]. fold q. rewrite E2.
    split; [now intros [= ->]|now intros ->]. }
  rewrite (read_op bits others x decode Plus k w HD Hk). cbn [machine a_op]. fold q. rewrite E2. rewrite WR. split.
  - split.
    + intros ->. do 2 f_equal. rewrite Z.add_mod_idemp_l by lia. replace (v - q + q)%Z with v by lia. now apply Z.mod_small.
    + intros [= <-]. rewrite Zminus_mod_idemp_l. replace (w + q - q)%Z with w by lia. symmetry. now apply Z.mod_small.
  - exists ((v - q) mod z)%Z. split; [apply Z.mod_pos_bound; lia|now apply WR].
Qed.

(** ** What goes wrong *)

(** [&&] and [||] in [check_value]: a value that differs from [a && b] is let through, and
    one that is [a || b] is turned down. *)
Theorem C83_check_refuted : forall bits others, let a := txt "a" in let b := txt "b" in let x := txt "x" in
  (let before := [(a, VBool true); (b, VBool false)] in
   eval (machine bits) (decoder_scope before others) (EOp AndAlso (EName a) (EName b)) = Some (VBool false) /\
   check_fails (machine bits) others before x (VBool true) (txt "a && b") = Some false) /\
  (let before := [(a, VBool true); (b, VBool true)] in
   eval (machine bits) (decoder_scope before others) (EOp OrElse (EName a) (EName b)) = Some (VBool true) /\
   check_fails (machine bits) others before x (VBool true) (txt "a || b") = Some true).
Proof. intros. repeat split; reflexivity. Qed.
(** A field that has a [value_encode] leaves a variable behind, which holds what has been
    written. In the decoder its name stands for the value. With [a * 4], [a / 4] for [a] and
    [x + a], [x - a] for [x] a value of [x] comes back only if [a] is 0. *)
Theorem C83_left_behind_refuted : forall others a x, let A := machine 8 in let na := txt "a" in let nx := txt "x" in
  ranges 8 (4 * a) -> ranges 8 x ->
  exists wa wx,
    struct_written A others [(na, Some (txt "a / 4")); (nx, Some (txt "x - a"))] [VInt (4 * a); VInt x] = Some [VInt wa; VInt wx] /\
    new_value A others [] na (VInt wa) (txt "a * 4") = Some (VInt (4 * a)) /\
    (new_value A others [(na, VInt (4 * a))] nx (VInt wx) (txt "x + a") = Some (VInt x) <-> a = 0%Z).
Proof.
  intros others a x A na nx Ha Hx. unfold ranges in *. change (2 ^ Z.of_N 8)%Z with 256%Z in *.
  exists (4 * a / 4)%Z, ((x - 4 * a / 4) mod 256)%Z. replace (4 * a / 4)%Z with a by (rewrite Z.mul_comm; now rewrite Z.div_mul).
  split; [|split].
  - transitivity (Some [VInt (4 * a / 4); VInt ((x - 4 * a / 4) mod 256)]); [reflexivity|].
    replace (4 * a / 4)%Z with a by (rewrite Z.mul_comm; now rewrite Z.div_mul). reflexivity.
  - transitivity (Some (VInt ((a * 4) mod 256))); [reflexivity|]. rewrite Z.mod_small by lia. do 2 f_equal. lia.
  - transitivity (Some (VInt (((x - a) mod 256 + 4 * a) mod 256)) = Some (VInt x)); [reflexivity|].
    rewrite Z.add_mod_idemp_l by lia. split.
    + intros E. apply (f_equal (fun o => match o with Some (VInt z) => z | _ => 0%Z end)) in E. cbv beta iota in E. replace (x - a + 4 * a)%Z with (x + 3 * a)%Z in E by lia.
      pose proof (Z.div_mod (x + 3 * a) 256 ltac:(lia)) as D. rewrite E in D.
      assert (0 <= (x + 3 * a) / 256)%Z by (apply Z.div_pos; lia). lia.
    + intros ->. do 2 f_equal. replace (x - 0 + 4 * 0)%Z with x by lia. now apply Z.mod_small.
Qed.
(** So in the numbers of later fields: [length = "a + b"] in a struct, where [b] has a
    [value_encode] (without one this does not compile, C66). [w]: what was written for [b]. *)
Theorem C83_length_refuted : forall A others a b w, let na := txt "a" in let nb := txt "b" in let fields := [(na, a); (nb, b)] in
  others (txt "self") = None ->
  code_value A (decoder_scope fields others) (var_code false (txt "a + b")) =
    match a_op A Plus a b with Some s => a_cast A (txt "usize") s | None => None end /\
  later_number A (struct_scope fields others) [(nb, Value (Held w))] (var_code true (txt "a + b")) =
    match a_op A Plus a w with Some s => a_cast A (txt "usize") s | None => None end.
Proof.
  intros A others a b w na nb fields Hs. split; [reflexivity|].
  transitivity (held_value (match option_map Value (option_map Held (a_op A Plus a w)) with
                            | Some v => a_cast (with_references (with_self A)) (txt "usize") v | None => None end)); [reflexivity|].
  destruct (a_op A Plus a w) as [s|]; [|reflexivity]. cbn [option_map with_references with_self a_cast].
  now destruct (a_cast A (txt "usize") s).
Qed.
(** In a variant with named fields, where the code for numbers begins with a star, a field
    that has a [value_encode] can be no one's length. *)
Theorem C83_variant_length_refuted : forall A others fields l x w, a_name x ->
  later_number A (bound_scope fields others) ((x, Value (Held w)) :: l) (star_code x) = None.
Proof.
  intros A others fields l x w N. unfold later_number.
  assert (R : reads_as Disjunction (star_code x) (ECast (EField (EName x) LStar) (txt "usize"))).
  { apply (whole Cast). change (star_code x) with (("("%byte :: "*"%byte :: x ++ [")"%byte] ++ list_byte_of_string " as " ++ txt "usize")).
    replace ("("%byte :: "*"%byte :: x ++ [")"%byte] ++ list_byte_of_string " as " ++ txt "usize") with
      (("("%byte :: ("*"%byte :: x) ++ [")"%byte]) ++ list_byte_of_string " as " ++ txt "usize") by (cbn [app]; now rewrite <- app_assoc).
    apply ra_cast; [|split; [split; [left; cbv; split; discriminate|]|discriminate]; repeat (constructor; [left; left; cbv; split; discriminate|]); constructor].
    apply ra_atom, ra_paren, (whole Cast), ra_front; [constructor|now apply ra_name]. }
  rewrite (C66_text _ _ _ _ _ R). cbn [eval]. unfold bound_scope. cbn [find fst]. now rewrite bytes_eqb_refl.
Qed.
(** In a tuple variant it can, and the number is what was written, not the field. *)
Theorem C83_variant_number_refuted : forall A others fields l x w, a_name x ->
  later_number A (bound_scope fields others) ((x, Value (Held w)) :: l) (var_code false x) = a_cast A (list_byte_of_string "usize") w.
Proof.
  intros A others fields l x w N. unfold later_number.
  assert (R : reads_as Disjunction (var_code false x) (ECast (EName x) (txt "usize"))).
  { apply (whole Cast). change (var_code false x) with ("("%byte :: x ++ [")"%byte] ++ list_byte_of_string " as " ++ txt "usize").
    replace ("("%byte :: x ++ [")"%byte] ++ list_byte_of_string " as " ++ txt "usize") with
      (("("%byte :: x ++ [")"%byte]) ++ list_byte_of_string " as " ++ txt "usize") by (cbn [app]; now rewrite <- app_assoc).
    apply ra_cast; [|split; [split; [left; cbv; split; discriminate|]|discriminate]; repeat (constructor; [left; left; cbv; split; discriminate|]); constructor].
    now apply ra_atom, ra_paren, (whole Atom), ra_name. }
  rewrite (C66_text _ _ _ _ _ R). cbn [eval]. unfold bound_scope. cbn [find fst]. rewrite bytes_eqb_refl.
  cbn [with_references with_self a_cast option_map]. change (list_byte_of_string "usize") with (txt "usize").
  now destruct (a_cast A (txt "usize") w).
Qed.

(** ** Cases *)
Definition no_names (x : bytes) : option val := None.
Lemma spaced s sign t o result left right a b : sign_of o sign result left right -> reads_as left s a -> reads_as right t b ->
  reads_as Disjunction (s ++ [" "%byte] ++ list_byte_of_string sign ++ " "%byte :: t) (EOp o a b).
Proof.
  intros Ho Ha Hb. rewrite app_assoc. apply (whole result). apply ra_operation with (left := left) (right := right); [exact Ho|now apply ra_after|now apply ra_before].
Qed.
Ltac a_word := split; [split; [left; cbv; split; discriminate|]|discriminate];
  repeat (constructor; [left; left; cbv; split; discriminate|]); constructor.
Lemma hl_name : a_name (txt "header"). Proof. a_word. Qed.
Lemma k_name : a_name (txt "k"). Proof. a_word. Qed.
Lemma a_name_ : a_name (txt "a"). Proof. a_word. Qed.
Lemma x_name : a_name (txt "x"). Proof. a_word. Qed.
Lemma self_name : a_name (txt "self"). Proof. a_word. Qed.
Lemma two : decimal_text (txt "2") 2. Proof. repeat split; try discriminate; repeat constructor; discriminate. Qed.
Ltac tight := (apply loosen with (l' := Atom); [cbn; lia|]).
(** [value_decode = "header << 2"], [value_encode = "header >> 2"], as in
    examples/packet_ipv4_example.rs:13: 20 comes back, 21 does not, and of the bytes 0x40
    does not. *)
Example C83_shift_case : let decode := txt "header << 2" in let encode := txt "header >> 2" in let x := txt "header" in
  reads_as Disjunction decode (EOp ShiftLeft (EName x) (ENum 2)) /\ reads_as Disjunction encode (EOp ShiftRight (EName x) (ENum 2)) /\
  (2 ^ Z.of_N 2 | 20)%Z /\ ~ (2 ^ Z.of_N 2 | 21)%Z /\ ~ (64 * 2 ^ Z.of_N 2 < 2 ^ Z.of_N 8)%Z.
Proof.
  cbv zeta. split; [|split; [|split; [|split]]].
  - apply (spaced (txt "header") "<<" (txt "2") ShiftLeft Shift Shift Sum); [constructor|tight; apply ra_name, hl_name|tight; apply ra_number, two].
  - apply (spaced (txt "header") ">>" (txt "2") ShiftRight Shift Shift Sum); [constructor|tight; apply ra_name, hl_name|tight; apply ra_number, two].
  - now exists 5%Z.
  - intros [c E]. change (2 ^ Z.of_N 2)%Z with 4%Z in E. lia.
  - discriminate.
Qed.
(** [if_expr = "a & 2 == 2"] *)
Example C83_condition_case : reads_as Disjunction (txt "a & 2 == 2") (EOp IsEqual (EOp AndBits (EName (txt "a")) (ENum 2)) (ENum 2)) /\
  condition (machine 8) no_names [(txt "a", VInt 7)] (txt "a & 2 == 2") = Some true /\
  condition (machine 8) no_names [(txt "a", VInt 5)] (txt "a & 2 == 2") = Some false.
Proof.
  split; [|now split]. apply (spaced (txt "a & 2") "==" (txt "2") IsEqual Comparison BitOr BitOr); [constructor| |tight; apply ra_number, two].
  apply (loosen BitOr BitAnd); [cbn; lia|].
  apply (ra_operation (txt "a ") _ (txt " 2") _ AndBits "&"%string BitAnd BitAnd Shift); [constructor| |].
  - apply (ra_after BitAnd (txt "a")). tight. apply ra_name, a_name_.
  - apply (ra_before Shift (txt "2")). tight. apply ra_number, two.
Qed.
(** [check_value = "a | 2"] *)
Example C83_check_case : reads_as BitOr (txt "a | 2") (EOp OrBits (EName (txt "a")) (ENum 2)) /\
  check_fails (machine 8) no_names [(txt "a", VInt 5)] (txt "x") (VInt 7) (txt "a | 2") = Some false /\
  check_fails (machine 8) no_names [(txt "a", VInt 5)] (txt "x") (VInt 5) (txt "a | 2") = Some true.
Proof.
  split; [|now split]. apply (ra_operation (txt "a ") _ (txt " 2") _ OrBits "|"%string BitOr BitOr BitXor); [constructor| |].
  - apply (ra_after BitOr (txt "a")). tight. apply ra_name, a_name_.
  - apply (ra_before BitXor (txt "2")). tight. apply ra_number, two.
Qed.
(** [check_value = "a == 2 || x"], which does not compile. *)
Example C83_check_comparison_case : begins_comparison (txt "a == 2 || x").
Proof.
  apply (bc_sign (txt "a ") (EName (txt "a")) IsEqual "==" (txt " 2") (ENum 2) (txt " || x")); [constructor| |].
  - apply (ra_after BitOr (txt "a")). tight. apply ra_name, a_name_.
  - apply (ra_before BitOr (txt "2")). tight. apply ra_number, two.
Qed.
(** [struct S { k: u8, #[jbytes(value_decode = "a * k", value_encode = "a / self.k")] a: u8 }] *)
Example C83_struct_case : let fs := [(txt "k", None); (txt "a", Some (txt "a / self.k"))] in
  forall i x o v w, nth_error fs i = Some (x, o) -> nth_error [VInt 3; VInt 12] i = Some v -> nth_error [VInt 3; VInt 4] i = Some w ->
    to_write (machine 8) no_names (combine (map fst fs) [VInt 3; VInt 12]) true (eq x) o v w.
Proof.
  intros fs [|[|i]] x o v w; cbn [fs nth_error]; [now intros [= <- <-] [= <-] [= <-]| |destruct i; discriminate].
  intros [= <- <-] [= <-] [= <-]. exists (EOp Divide (EName (txt "a")) (EName (txt "k"))), (EOp Divide (EName (txt "a")) (EField (EName (txt "self")) (LName (txt "k")))).
  split; [|split; [|reflexivity]].
  - apply (spaced (txt "a") "/" (txt "self.k") Divide Product Product Cast); [constructor|tight; apply ra_name, a_name_|tight].
    apply (ra_field (txt "self") _ (txt "k")); [apply ra_name, self_name|discriminate|exact k_name].
  - apply pu_op; [now apply pu_own|apply pu_field; [reflexivity|now left]|left; exact Logic.I].
Qed.
(** [V { k: u8, #[jbytes(value_decode = "a * k", value_encode = "a / k")] a: u8 }] *)
Example C83_variant_case : let fs := [(txt "k", None); (txt "a", Some (txt "a / k"))] in
  forall i x o v w, nth_error fs i = Some (x, o) -> nth_error [VInt 3; VInt 12] i = Some v -> nth_error [VInt 3; VInt 4] i = Some w ->
    to_write (machine 8) no_names (combine (map fst fs) [VInt 3; VInt 12]) false (fun k => In k (map fst fs) /\ ~ rewritten_before fs i k) o v w.
Proof.
  intros fs [|[|i]] x o v w; cbn [fs nth_error]; [now intros [= <- <-] [= <-] [= <-]| |destruct i; discriminate].
  intros [= <- <-] [= <-] [= <-]. exists (EOp Divide (EName (txt "a")) (EName (txt "k"))), (EOp Divide (EName (txt "a")) (EName (txt "k"))).
  split; [|split; [|reflexivity]].
  - apply (spaced (txt "a") "/" (txt "k") Divide Product Product Cast); [constructor|tight; apply ra_name, a_name_|tight; apply ra_name, k_name].
  - assert (N : forall k, ~ rewritten_before fs 1 k) by (intros k (t & [E|[]]); discriminate).
    apply pu_op; [apply pu_own; split; [right; now left|apply N]|apply pu_own; split; [now left|apply N]|left; exact Logic.I].
Qed.
(** Without [self] the encoder of the struct does not compile. *)
Example C83_other_field_case : reads_as Disjunction (txt "a / k") (EOp Divide (EName (txt "a")) (EName (txt "k"))) /\
  rewrite_field (machine 8) (struct_scope [(txt "k", VInt 3); (txt "a", VInt 12)] no_names) [] (txt "a") (VInt 12) (txt "a / k") = None.
Proof.
  split; [|reflexivity]. apply (spaced (txt "a") "/" (txt "k") Divide Product Product Cast); [constructor|tight; apply ra_name, a_name_|tight; apply ra_name, k_name].
Qed.
(** [a == 3]: true or false in the decoder, no encoder. *)
Example C83_compare_case : reads_as Disjunction (txt "a == 3") (EOp IsEqual (EName (txt "a")) (ENum 3)) /\
  new_value (machine 8) no_names [] (txt "a") (VInt 3) (txt "a == 3") = Some (VBool true) /\
  rewrite_field (machine 8) (struct_scope [(txt "a", VInt 3)] no_names) [] (txt "a") (VInt 3) (txt "a == 3") = None.
Proof.
  split; [|split; reflexivity]. apply (spaced (txt "a") "==" (txt "3") IsEqual Comparison BitOr BitOr); [constructor|tight; apply ra_name, a_name_|tight; apply ra_number].
  repeat split; try discriminate; repeat constructor; discriminate.
Qed.
(** 20 and 50: [a] is written as 5, [x] as 45, which is read as 65. *)
Example C83_left_behind_case : ranges 8 (4 * 5) /\ ranges 8 50 /\
  new_value (machine 8) no_names [(txt "a", VInt 20)] (txt "x") (VInt 45) (txt "x + a") = Some (VInt 65).
Proof. repeat split; discriminate. Qed.
Print Assumptions C83_condition. Print Assumptions C83_new_value. Print Assumptions C83_check. Print Assumptions C83_check_first.
Print Assumptions C83_check_comparison_refuted. Print Assumptions C83_check_cases. Print Assumptions C83_struct. Print Assumptions C83_variant.
Print Assumptions C83_other_field_refuted. Print Assumptions C83_compare_refuted. Print Assumptions C83_scale. Print Assumptions C83_shift. Print Assumptions C83_offset.
Print Assumptions C83_check_refuted. Print Assumptions C83_left_behind_refuted. Print Assumptions C83_length_refuted.
Print Assumptions C83_variant_length_refuted. Print Assumptions C83_variant_number_refuted.

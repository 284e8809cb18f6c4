(** C82: the arguments of [with_args] in derived decoders and encoders. *)
From Coq Require Import Ascii String.
From Verif Require GetLemmas.
From Verif Require Import Base BaseLemmas Ints Text AttrParse GenExpr GenArgs TextSpec GenExprSpec GenArgsSpec GenExprLemmas PropsExpr
  Source SourceSpec PropsSource TupleSource TupleSpec PropsTuple Schema.
Close Scope string_scope.

(** ** Pieces *)
Lemma blank_iff s : blank s = true <-> Forall (eq " "%byte) s.
Proof.
  unfold blank. rewrite forallb_forall, Forall_forall. split; intros H c Hc; specialize (H c Hc).
  - now apply GetLemmas.eqb_iff.
  - now apply GetLemmas.eqb_iff.
Qed.
Lemma split_more x b : ~ In ","%byte x -> split_on ","%byte (x ++ ","%byte :: b) = x :: split_on ","%byte b.
Proof.
  induction x as [|c x IH]; intros H; [reflexivity|]. cbn in H. cbn [app split_on].
  destruct (Byte.eqb c ","%byte) eqn:E; [apply GetLemmas.eqb_iff in E; subst; tauto|]. rewrite IH by tauto. reflexivity.
Qed.
Lemma split_one x : ~ In ","%byte x -> split_on ","%byte x = [x].
Proof.
  induction x as [|c x IH]; intros H; [reflexivity|]. cbn in H. cbn [split_on].
  destruct (Byte.eqb c ","%byte) eqn:F; [apply GetLemmas.eqb_iff in F; subst; tauto|]. rewrite IH by tauto. reflexivity.
Qed.
Lemma comma_cons x r : r <> [] -> comma_list (x :: r) = x ++ ","%byte :: comma_list r.
Proof. now destruct r. Qed.
Lemma split_list l : l <> [] -> Forall (fun x => ~ In ","%byte x) l -> split_on ","%byte (comma_list l) = l.
Proof.
  intros Hl H. induction H as [|x l Hx H IH]; [congruence|]. destruct l as [|y l]; [now apply split_one|].
  rewrite comma_cons by discriminate. rewrite split_more by exact Hx. f_equal. now apply IH.
Qed.
Lemma comma_snoc l b : l <> [] -> comma_list l ++ ","%byte :: b = comma_list (l ++ [b]).
Proof.
  intros Hl. induction l as [|x l IH]; [congruence|]. destruct l as [|y l]; [reflexivity|].
  rewrite comma_cons by discriminate. rewrite <- app_assoc. cbn [app]. rewrite IH by discriminate. reflexivity.
Qed.
Lemma pieces_listed text l : listed text l -> pieces text = l.
Proof.
  intros (Hl & HF & [[-> (c & Hc & Hn)]|(sp & Hs & ->)]); unfold pieces.
  - rewrite split_list by assumption. replace (blank (last l [])) with false; [reflexivity|].
    symmetry. destruct (blank _) eqn:E; [|reflexivity]. apply blank_iff in E. rewrite Forall_forall in E. now elim Hn; rewrite <- (E c Hc).
  - rewrite comma_snoc by exact Hl. rewrite split_list.
    + rewrite last_last. apply blank_iff in Hs. rewrite Hs. now rewrite removelast_last.
    + now destruct l.
    + apply Forall_app. split; [exact HF|]. constructor; [|constructor]. intros Hi. rewrite Forall_forall in Hs. now apply Hs in Hi.
Qed.
Lemma listed_prefix p text x l : ~ In ","%byte p -> (exists c, In c p /\ c <> " "%byte) ->
  listed text (x :: l) -> listed (p ++ text) ((p ++ x) :: l).
Proof.
  intros Hp Hc (_ & HF & H). inversion_clear HF as [|? ? Hx Hl]. split; [discriminate|]. split.
  - constructor; [|exact Hl]. intros Hi. apply in_app_iff in Hi as [Hi|Hi]; auto.
  - assert (E : p ++ comma_list (x :: l) = comma_list ((p ++ x) :: l)).
    { destruct l as [|y l]; [reflexivity|]. rewrite !comma_cons by discriminate. now rewrite app_assoc. }
    destruct H as [[-> (c & Hi & Hn)]|(sp & Hs & ->)].
    + left. split; [exact E|]. exists c. split; [|exact Hn]. destruct l as [|y l]; [|exact Hi].
      cbn in *. apply in_app_iff. now right.
    + right. exists sp. split; [exact Hs|]. now rewrite app_assoc, E.
Qed.

(** ** Code as it stands *)
Lemma lex_self v : lex [] (txt "self." ++ v) = match lex [] v with Some ts => Some (self_tokens ++ ts) | None => None end.
Proof.
  change (txt "self." ++ v) with (txt "self" ++ "."%byte :: v).
  rewrite (lex_cut (txt "self") [] "."%byte _ [TDot]) by reflexivity.
  change (lex [] (txt "self")) with (Some [TName (txt "self")]). now destruct (lex [] v).
Qed.
Lemma bare_leaf d a f ts e : leaf d = Some (a, f) -> parse_all (d :: ts) = Some e ->
  exists e', parse_all (self_tokens ++ d :: ts) = Some e' /\ graft a (self_dot f) e e'.
Proof.
  intros Hd H. apply parse_all_some in H as (k & _ & H). destruct (parse_leaf _ _ _ _ _ _ _ _ Hd H) as (e' & P & G).
  exists e'. split; [exact (parse_all_complete _ _ _ P)|exact G].
Qed.
Lemma bare_other ts e : (forall d r, ts = d :: r -> leaf d = None) -> parse_all ts = Some e ->
  parse_all (self_tokens ++ ts) = None.
Proof.
  intros Hl H. apply parse_all_some in H as (k & _ & H).
  destruct (parse_all (self_tokens ++ ts)) as [e'|] eqn:E; [|reflexivity].
  exfalso. apply parse_all_some in E as (k' & _ & E).
  destruct k as [|[|k]]; try discriminate; destruct k' as [|[|[|k']]]; try discriminate;
    destruct ts as [|d ts]; try (specialize (Hl d ts eq_refl); destruct d; try discriminate Hl); cbn in H, E;
    try discriminate; now destruct ts.
Qed.
Lemma bare_names ts e : parse_all ts = Some e -> names e = GenExprSpec.bare ts.
Proof.
  intros H. apply parse_all_some in H as (k & _ & H). apply (proj1 (parse_names _)) in H. cbn [GenExprSpec.bare] in H. now rewrite app_nil_r in H.
Qed.

Section Scopes.
Context {V : Type}.
Variables (A : arithmetic V) (before after : list (bytes * V)) (self : V) (others : bytes -> option V).
Hypothesis HS : struct_value A (before ++ after) self.
Hypothesis HA : apart (before ++ after) others.
Let fields := map fst (before ++ after).

Lemma first_value text v : code_value A (decoder_scope before others) text = Some v ->
  one_field_first fields text /\ code_value A (encoder_scope self others) (txt "self." ++ text) = Some v \/
  ~ one_field_first fields text /\ code_value A (encoder_scope self others) (txt "self." ++ text) = None.
Proof.
  unfold code_value. rewrite lex_self. destruct (lex [] text) as [ts|] eqn:EL; [|discriminate].
  destruct (parse_all ts) as [e|] eqn:HP; [|discriminate]. intros HV.
  pose proof (bare_names _ _ HP) as HN.
  assert (Hdef : forall y, In y (names e) -> decoder_scope before others y <> None).
  { intros y Hy Hn. rewrite (eval_missing A _ e y Hy Hn) in HV. discriminate. }
  assert (NF : forall P : Prop, (forall x r, ts = TName x :: r -> In x fields -> (forall y, In y (GenExprSpec.bare r) -> ~ In y fields) -> P) ->
    one_field_first fields text -> P).
  { intros P H (x & r & Hl & Hx & Hr). rewrite EL in Hl. injection Hl as ->. now apply (H x r). }
  destruct ts as [|d r].
  { right. split; [refine (NF False _); discriminate|]. rewrite (bare_other [] e); [reflexivity|discriminate|exact HP]. }
  destruct (leaf d) as [[a f]|] eqn:Hd.
  2:{ right. split.
      - refine (NF False _). intros x r' [= -> ->]. intros; discriminate Hd.
      - rewrite (bare_other (d :: r) e); [reflexivity| |exact HP]. intros d' r' [= <- <-]. exact Hd. }
  destruct (bare_leaf _ _ _ _ _ Hd HP) as (e' & HP' & HG). rewrite HP'.
  destruct d as [x|n| | | | | |]; try discriminate; injection Hd as <- <-.
  - cbn [GenExprSpec.bare] in HN. destruct (graft_names _ _ _ _ HG) as (ns & Hn & Hn'). cbn in Hn, Hn'.
    rewrite Hn in HN. injection HN as ->.
    destruct (in_fields_dec before after x) as [Hx|Hx].
    + destruct (some_field before after (GenExprSpec.bare r)) as [(y & Hy & Hf)|Hnone].
      * right. split.
        -- refine (NF False _). intros x' r' [= <- <-] _ Hno. exact (Hno y Hy Hf).
        -- apply (eval_missing A _ e' y); [rewrite Hn'; now right|now apply (encoder_field before after self others HA)].
      * left. split; [exists x, r; auto|]. rewrite <- HV. symmetry.
        apply (graft_eval A _ _ _ _ _ _ (GenExprSpec.bare r) HG Hn).
        -- cbn [eval self_dot]. rewrite (self_scope self others).
           destruct (decoder_scope before others x) as [w|] eqn:Ex.
           ++ symmetry. now apply (find_before A before after self others HS HA).
           ++ elim (Hdef x); [rewrite Hn; now left|exact Ex].
        -- intros y Hy. symmetry. apply (encoder_other before after self others HA); [now apply Hnone|]. apply Hdef. rewrite Hn. now right.
    + right. split; [refine (NF False _); intros x' r' [= <- <-] Hx' _; contradiction|].
      apply (graft_missing A _ _ _ _ _ HG). cbn [eval self_dot]. rewrite (self_scope self others). now apply (sv_only _ _ _ HS).
  - right. split; [refine (NF False _); discriminate|].
    apply (graft_missing A _ _ _ _ _ HG). cbn [eval self_dot]. rewrite (self_scope self others). apply (sv_number _ _ _ HS).
Qed.
Lemma next_value text v : code_value A (decoder_scope before others) text = Some v ->
  no_field fields text /\ code_value A (encoder_scope self others) text = Some v \/
  ~ no_field fields text /\ code_value A (encoder_scope self others) text = None.
Proof.
  unfold code_value. destruct (lex [] text) as [ts|] eqn:EL; [|discriminate].
  destruct (parse_all ts) as [e|] eqn:HP; [|discriminate]. intros HV. pose proof (bare_names _ _ HP) as HN.
  destruct (some_field before after (GenExprSpec.bare ts)) as [(y & Hy & Hf)|Hnone].
  - right. split; [intros (ts' & Hl & Hno); rewrite EL in Hl; injection Hl as <-; exact (Hno y Hy Hf)|].
    apply (eval_missing A _ e y); [now rewrite HN|now apply (encoder_field before after self others HA)].
  - left. split; [exists ts; auto|]. rewrite <- HV. apply eval_same. intros y Hy. apply (encoder_other before after self others HA).
    + apply Hnone. now rewrite <- HN.
    + intros Hn. rewrite (eval_missing A _ e y Hy Hn) in HV. discriminate.
Qed.
Lemma next_values l : forall vs, all_some (map (code_value A (decoder_scope before others)) l) = Some vs ->
  Forall (no_field fields) l /\ all_some (map (code_value A (encoder_scope self others)) l) = Some vs \/
  ~ Forall (no_field fields) l /\ all_some (map (code_value A (encoder_scope self others)) l) = None.
Proof.
  induction l as [|x l IH]; intros vs; cbn [map all_some].
  - intros [= <-]. left. split; [constructor|reflexivity].
  - destruct (code_value A (decoder_scope before others) x) as [v|] eqn:E; [|discriminate].
    destruct (all_some _) as [ws|]; [|discriminate]. intros [= <-].
    destruct (next_value x v E) as [[H1 ->]|[H1 ->]].
    + destruct (IH ws eq_refl) as [[H2 ->]|[H2 ->]].
      * left. split; [now constructor|reflexivity].
      * right. split; [intros H; inversion_clear H; contradiction|reflexivity].
    + right. split; [intros H; inversion_clear H; contradiction|reflexivity].
Qed.
End Scopes.

(** ** Structs with named fields

    Arguments that compile in the decoder compile in the encoder, and are the same there,
    if the first begins with a field and mentions no other, and the rest mention none;
    otherwise the encoder does not compile. For every arithmetic. *)
Theorem C82_struct : forall V (A : arithmetic V) before after self others text l vs,
  struct_value A (before ++ after) self -> apart (before ++ after) others -> listed text l ->
  arguments A (decoder_scope before others) (decoder_args (Some text)) = Some vs ->
  let encoded := arguments A (encoder_scope self others) (encoder_args true (Some text)) in
  first_is_field (map fst (before ++ after)) l /\ encoded = Some vs \/
  ~ first_is_field (map fst (before ++ after)) l /\ encoded = None.
Proof.
  intros V A before after self others text l vs HS HA HL HD encoded.
  destruct l as [|x l]; [now destruct HL|].
  assert (HE : encoded = arguments A (encoder_scope self others) (txt "self." ++ text)) by reflexivity. rewrite HE. clear HE encoded.
  unfold arguments in *. cbn [decoder_args] in HD. rewrite (pieces_listed _ _ HL) in HD.
  rewrite (pieces_listed (txt "self." ++ text) ((txt "self." ++ x) :: l)).
  2:{ apply listed_prefix; [cbv; intuition discriminate| |exact HL]. exists "s"%byte. split; [now left|discriminate]. }
  cbn [map all_some] in *. destruct (code_value A (decoder_scope before others) x) as [v|] eqn:E; [|discriminate].
  destruct (all_some _) as [ws|] eqn:EW; [|discriminate]. injection HD as <-.
  destruct (first_value A before after self others HS HA x v E) as [[H1 ->]|[H1 ->]].
  - destruct (next_values A before after self others HA l ws EW) as [[H2 ->]|[H2 ->]].
    + left. split; [now split|reflexivity].
    + right. split; [now intros [_ H]|reflexivity].
  - right. split; [now intros [H _]|reflexivity].
Qed.
(** Without [with_args] there are none on either side. *)
Theorem C82_none : forall V (A : arithmetic V) scope scope' is_self,
  arguments A scope (decoder_args None) = Some [] /\ arguments A scope' (encoder_args is_self None) = Some [].
Proof. now split. Qed.
(** With empty ones, the encoder of a struct does not compile. *)
Theorem C82_empty_refuted : forall V (A : arithmetic V) scope scope' spaces, Forall (eq " "%byte) spaces ->
  arguments A scope (decoder_args (Some spaces)) = Some [] /\
  arguments A scope' (encoder_args true (Some spaces)) = None.
Proof.
  intros V A scope scope' sp H. assert (Hn : ~ In ","%byte sp) by (intros Hi; rewrite Forall_forall in H; now apply H in Hi).
  assert (HL : lex [] sp = Some []).
  { clear Hn. induction H as [|c s <- H IH]; [reflexivity|]. destruct s as [|d r]; [reflexivity|].
    transitivity (punct [] " "%byte (lex [] (d :: r))); [reflexivity|]. now rewrite IH. }
  split.
  - unfold arguments, pieces. cbn [decoder_args]. rewrite split_one by exact Hn. apply blank_iff in H. cbn [last]. now rewrite H.
  - change (encoder_args true (Some sp)) with (txt "self." ++ sp). unfold arguments.
    rewrite (pieces_listed _ [txt "self." ++ sp]).
    + cbn [map all_some]. unfold code_value. rewrite lex_self, HL. reflexivity.
    + split; [discriminate|]. split.
      * constructor; [|constructor]. intros Hi. apply in_app_iff in Hi as [Hi|Hi]; [cbv in Hi; intuition discriminate|auto].
      * left. split; [reflexivity|]. exists "s"%byte. split; [now left|discriminate].
Qed.

(** ** Variants

    The encoder hands over the same values, but a field that stands by itself as a
    reference. *)
Theorem C82_variant : forall V (A : arithmetic V) before after others text l es vs,
  NoDup (map fst (before ++ after)) -> (forall x, In x (map fst (before ++ after)) -> others x = None) ->
  listed text l -> Forall2 (GenExprSpec.reads_as Disjunction) l es -> Forall plain_expr es ->
  arguments A (decoder_scope before others) (decoder_args (Some text)) = Some vs ->
  exists ps, arguments (with_references A) (variant_scope (before ++ after) others) (encoder_args false (Some text)) = Some ps /\
    map target ps = vs /\
    Forall2 (fun e p => (exists v, p = Reference v) <-> exists x, In x (map fst (before ++ after)) /\ e = EName x) es ps.
Proof.
  intros V A before after others text l es vs HN HO HL HR HP. unfold arguments. cbn [decoder_args encoder_args app].
  rewrite (pieces_listed _ _ HL). clear HL text. revert HP vs.
  induction HR as [|x e l es Hx HR IH]; intros HP vs; cbn [map all_some].
  - intros [= <-]. exists []. repeat split; constructor.
  - inversion_clear HP as [|? ? Pe Pes]. rewrite !(C66_text _ _ _ _ _ Hx).
    destruct (eval A (decoder_scope before others) e) as [v|] eqn:E; [|discriminate].
    destruct (all_some _) as [ws|]; [|discriminate]. intros [= <-].
    destruct (IH Pes ws eq_refl) as (ps & -> & <- & HF).
    destruct (variant_eval A before after others HN HO e Pe v E) as [[(y & -> & Hy) ->]|[Hno ->]].
    + exists (Reference v :: ps). split; [reflexivity|]. split; [reflexivity|]. constructor; [|exact HF].
      split; intros _; [now exists y|now exists v].
    + exists (Value v :: ps). split; [reflexivity|]. split; [reflexivity|]. constructor; [|exact HF].
      split; [intros (w & ?); discriminate|]. intros (y & Hy & ->). elim Hno. now exists y.
Qed.

(** ** Tuple structs

    The encoder's arguments compile only if the first begins with a number, which is then
    taken for a field. *)
Theorem C82_tuple : forall A others s vs text x l ws,
  (forall y, In y (tuple_names s) -> others y = None) -> listed text (x :: l) ->
  arguments (with_tuple A) (encoder_scope (Self_tuple vs) (fun y => option_map Plain (others y))) (encoder_args true (Some text)) = Some ws ->
  exists n, number_first (tuple_names s) x n /\ n < N.of_nat (length vs) /\ Forall (no_field (tuple_names s)) l.
Proof.
  intros A others s vs text x l ws HO HL.
  assert (HF : forall y, In y (tuple_names s) -> y <> txt "self" /\ others y = None).
  { intros y Hy. split; [|now apply HO]. apply in_map_iff in Hy as (i & <- & _). discriminate. }
  change (encoder_args true (Some text)) with (txt "self." ++ text). unfold arguments.
  rewrite (pieces_listed (txt "self." ++ text) ((txt "self." ++ x) :: l)).
  2:{ apply listed_prefix; [cbv; intuition discriminate| |exact HL]. exists "s"%byte. split; [now left|discriminate]. }
  set (sc := encoder_scope _ _). cbn [map all_some].
  destruct (code_value _ sc (txt "self." ++ x)) as [w|] eqn:E; [|discriminate].
  destruct (all_some _) as [us|] eqn:EU; [|discriminate]. intros _.
  unfold code_value in E. rewrite lex_self in E. destruct (lex [] x) as [ts|] eqn:EL; [|discriminate].
  destruct (parse_all _) as [e|] eqn:EP; [|discriminate].
  assert (HN : names e = GenExprSpec.bare (self_tokens ++ ts)) by exact (bare_names _ _ EP).
  assert (M : forall y, In y (names e) -> sc y <> None).
  { intros y Hy Hn. now rewrite (eval_missing _ _ e y Hy Hn) in E. }
  assert (NS : forall y, In y (tuple_names s) -> sc y = None).
  { intros y Hy. destruct (HF y Hy) as [H1 H2]. unfold sc, encoder_scope.
    destruct (bytes_eqb y (txt "self")) eqn:B; [apply bytes_eqb_eq in B; contradiction|]. now rewrite H2. }
  apply parse_all_some in EP as (k & _ & P).
  destruct k as [|[|k]]; try discriminate.
  destruct ts as [|d r]; [now destruct k|].
  destruct (leaf d) as [[a f]|] eqn:Hd; [|destruct d; try discriminate Hd; now destruct k].
  assert (P' : extend k 0 (self_dot f) r = Some (e, [])) by (destruct d; try discriminate Hd; injection Hd as <- <-; exact P).
  destruct (extend_graft _ _ _ (self_dot f) _ _ _ P') as (e' & H1 & HG). rewrite P' in H1. injection H1 as <-.
  assert (HS : eval (with_tuple A) sc (self_dot f) <> None).
  { intros X. now rewrite (graft_missing _ _ _ _ _ _ HG X) in E. }
  destruct d as [y|n| | | | | |]; try discriminate Hd; injection Hd as <- <-; [now elim HS|].
  exists n. split; [exists r; split; [exact EL|]|split].
  - intros y Hy Hf. apply (M y); [|now apply NS]. rewrite HN. cbn [self_tokens app GenExprSpec.bare]. now right.
  - change (option_map Plain (nth_error vs (N.to_nat n)) <> None) in HS.
    destruct (nth_error vs (N.to_nat n)) eqn:En; [|now elim HS]. assert (N.to_nat n < length vs)%nat by (apply nth_error_Some; congruence). lia.
  - clear - EU NS. revert us EU. induction l as [|z l IH]; intros us EU; [constructor|]. cbn [map all_some] in EU.
    destruct (code_value _ sc z) as [w|] eqn:Z; [|discriminate]. destruct (all_some _) as [us'|]; [|discriminate].
    constructor; [|now apply (IH us')]. unfold code_value in Z. destruct (lex [] z) as [ts|] eqn:L; [|discriminate].
    exists ts. split; [exact L|]. destruct (parse_all ts) as [e|] eqn:P; [|discriminate]. intros y Hy Hf.
    rewrite <- (bare_names _ _ P) in Hy. now rewrite (eval_missing _ _ e y Hy (NS y Hf)) in Z.
Qed.

(** ** Cases *)
Definition to_decoder (text : string) := arguments numbers (decoder_scope ab consts) (decoder_args (Some (txt text))).
Definition to_encoder (text : string) := arguments numbers (encoder_scope (VStruct abc) consts) (encoder_args true (Some (txt text))).
Definition to_variant (text : string) :=
  arguments (with_references numbers) (variant_scope abc consts) (encoder_args false (Some (txt text))).
Lemma struct_abc : struct_value numbers abc (VStruct abc).
Proof. apply numbers_struct. cbn. repeat constructor; cbn; intuition discriminate. Qed.
Lemma apart_abc : apart abc consts.
Proof.
  split; [reflexivity|]. split; [cbn; intuition discriminate|].
  intros x Hx. cbn in Hx. destruct Hx as [<-|[<-|[<-|[]]]]; reflexivity.
Qed.
(** [with_args = "a + 1, N * 2"] *)
Example C82_case :
  struct_value numbers abc (VStruct abc) /\ apart abc consts /\
  listed (txt "a + 1, N * 2") [txt "a + 1"; txt " N * 2"] /\
  first_is_field (map fst abc) [txt "a + 1"; txt " N * 2"] /\
  to_decoder "a + 1, N * 2" = Some [VNum 4; VNum 14] /\ to_encoder "a + 1, N * 2" = Some [VNum 4; VNum 14] /\
  to_decoder "a, N," = Some [VNum 3; VNum 7] /\ to_encoder "a, N," = Some [VNum 3; VNum 7] /\
  to_variant "a + 1, b" = Some [Value (VNum 4); Reference (VNum 5)].
Proof.
  split; [exact struct_abc|]. split; [exact apart_abc|]. split.
  { split; [discriminate|]. split; [repeat constructor; cbv; intuition discriminate|].
    left. split; [reflexivity|]. exists "N"%byte. split; [right; now left|discriminate]. }
  split.
  { split.
    - exists (txt "a"), [TOp Plus; TNum 1]. split; [reflexivity|]. split; [now left|]. intros y [].
    - constructor; [|constructor]. exists [TName (txt "N"); TOp Times; TNum 2]. split; [reflexivity|].
      intros y [<-|[]]. cbv. intuition discriminate. }
  repeat split.
Qed.
(** Two fields, a constant, a number, or a field behind a constant: they compile in the
    decoder only. *)
Theorem C82_refuted : ~ (forall V (A : arithmetic V) before after self others text l vs,
  struct_value A (before ++ after) self -> apart (before ++ after) others -> listed text l ->
  arguments A (decoder_scope before others) (decoder_args (Some text)) = Some vs ->
  arguments A (encoder_scope self others) (encoder_args true (Some text)) = Some vs).
Proof.
  intros H. specialize (H value numbers ab [(txt "c", VNum 9)] (VStruct abc) consts (txt "a, b") [txt "a"; txt " b"] [VNum 3; VNum 5] struct_abc apart_abc).
  discriminate H; [|reflexivity]. split; [discriminate|]. split; [repeat constructor; cbv; intuition discriminate|].
  left. split; [reflexivity|]. exists "b"%byte. split; [right; now left|discriminate].
Qed.
Example C82_refuted_cases :
  to_decoder "a, b" = Some [VNum 3; VNum 5] /\ to_encoder "a, b" = None /\
  to_decoder "N" = Some [VNum 7] /\ to_encoder "N" = None /\
  to_decoder "1" = Some [VNum 1] /\ to_encoder "1" = None /\
  to_decoder "N, a" = Some [VNum 7; VNum 3] /\ to_encoder "N, a" = None.
Proof. repeat split. Qed.
(** In a tuple struct, [with_args = "0"] is 0 to the decoder and the first field to the
    encoder. *)
Theorem C82_tuple_refuted : forall v vs,
  arguments integers (decoder_scope [] nothing_else) (decoder_args (Some (txt "0"))) = Some [VInt 0] /\
  arguments (with_tuple integers) (encoder_scope (Self_tuple (v :: vs)) (fun y => option_map Plain (nothing_else y)))
            (encoder_args true (Some (txt "0"))) = Some [Plain v].
Proof. now split. Qed.

Print Assumptions C82_struct.
Print Assumptions C82_none.
Print Assumptions C82_empty_refuted.
Print Assumptions C82_variant.
Print Assumptions C82_tuple.
Print Assumptions C82_refuted.
Print Assumptions C82_tuple_refuted.

(** Lemmas for C86. *)
From Coq Require Import Ascii String.
From Verif Require Import Base BaseLemmas Ints SpecOps Reader Writer Sugar TextSpec Text AttrParse AttrSpec AttrLemmas EnumTextSpec EnumTextLemmas GenExpr GenExprSpec
  GenExprLemmas PropsExpr PropsAttr GenDecode GenSpec Source SourceSpec SourceLemmas Decode Encode VarSource VarSourceSpec VarSourceLemmas
  VarEncode VarEncodeSpec Schema.
Close Scope string_scope.

(** ** Entries in the encoder *)
Definition alike_but (en : env) (f g : fspec) : Prop := alike en f (with_length (f_length f) g).
Definition sized_ok (M M' M'' : meaning) (en : env) (e : entry) : Prop :=
  match e with
  | Tag _ => True
  | Property k lit => forall s, string_literal lit s ->
      (called k number_keys -> ~ called k ["length"%string] -> expression s -> m_number M s en = m_number M' s en) /\
      (called k ["length"%string] -> expression s -> m_number M s en = m_number M'' s en) /\
      (called k ["byteorder"%string] -> ~ called s ["BE"; ">"; "0"; "LE"; "<"; "1"]%string -> m_order M s en = m_order M' s en)
  end.
Ltac finish_but := let H := fresh in intros _ ? ? H; unfold alike_but in *; destruct H; constructor; cbn in *; auto.
Ltac number_but :=
  let B := fresh in let AL := fresh in intros B ? ? AL;
  match goal with
  | K : called ?k _, E : sized_ok _ _ _ _ _ -> ~ called ?k _ -> _ |- _ =>
      specialize (E B); unfold called in K, E; cbn [map In] in K;
      repeat (destruct K as [K|K]; [subst k|]); try contradiction;
      (specialize (E ltac:(let X := fresh in intros [X|[]]; discriminate X)))
  end; unfold alike_but in *; destruct AL; constructor; cbn in *; auto.
Lemma says_but N O N' O' M'' m en e g :
  let M := with_numbers N O m in let M' := with_numbers N' O' m in
  says M e g ->
  exists g', says M' e g' /\ (sized_ok M M' M'' en e -> forall f f', alike_but en f f' -> alike_but en (g f) (g' f')).
Proof.
  cbv zeta. intros S.
  assert (D : forall k lit x, e = Property k lit -> called k number_keys -> denotes (with_numbers N O m) lit x ->
                exists x', denotes (with_numbers N' O' m) lit x' /\
                  (sized_ok (with_numbers N O m) (with_numbers N' O' m) M'' en e -> ~ called k ["length"%string] -> x en = x' en)).
  { intros k lit x -> K H. destruct H as [lit s n Q W L|lit s Q X]; eexists; split.
    - eapply denotes_number; eassumption.
    - reflexivity.
    - eapply denotes_expression; eassumption.
    - intros B NO. apply (proj1 (B _ Q)); assumption. }
  destruct S.
  all: try match goal with H : denotes _ _ _ |- _ =>
         edestruct D as (x' & D' & E); [reflexivity|eapply called_sub; [eassumption|intros ?; cbn; tauto]|exact H|] end.
  all: clear D.
  - eexists; split; [apply says_untake|finish_but].
  - eexists; split; [apply says_remaining|finish_but].
  - eexists; split; [apply says_bits_flag|finish_but].
  - eexists; split; [apply says_skip|finish_but].
  - eexists; split; [apply says_skip_encode|finish_but].
  - eexists; split; [apply says_skip_decode|finish_but].
  - eexists; split; [apply says_from_str|finish_but].
  - eexists; split; [eapply says_big; eassumption|finish_but].
  - eexists; split; [eapply says_little; eassumption|finish_but].
  - eexists; split; [eapply says_order; eassumption|].
    intros B f f' AL. unfold alike_but in *. destruct AL. constructor; cbn in *; auto.
    match goal with H : string_literal _ _ |- _ => destruct (B _ H) as (_ & _ & X) end. apply X; assumption.
  - eexists; split; [eapply says_length; eassumption|finish_but].
  - eexists; split; [eapply says_offset; eassumption|number_but].
  - eexists; split; [eapply says_count; eassumption|number_but].
  - eexists; split; [eapply says_try_count; eassumption|number_but].
  - eexists; split; [eapply says_branch; eassumption|number_but].
  - eexists; split; [eapply says_bits; eassumption|number_but].
  - eexists; split; [eapply says_bits_start; eassumption|number_but].
  - eexists; split; [eapply says_byte_count; eassumption|number_but].
  - eexists; split; [eapply says_outside; eassumption|number_but].
  - eexists; split; [eapply says_full; eassumption|finish_but].
  - eexists; split; [eapply says_key; eassumption|finish_but].
  - eexists; split; [eapply says_split; eassumption|finish_but].
  - eexists; split; [eapply says_linend; eassumption|finish_but].
  - eexists; split; [eapply says_loop; eassumption|finish_but].
  - eexists; split; [eapply says_if; eassumption|finish_but].
  - eexists; split; [eapply says_value_decode; eassumption|finish_but].
  - eexists; split; [eapply says_value_encode; eassumption|finish_but].
  - eexists; split; [eapply says_check; eassumption|finish_but].
  - eexists; split; [eapply says_variables; eassumption|finish_but].
Qed.
Lemma says_lengths N O N' O' M' m en e g :
  let M := with_numbers N O m in let M'' := with_numbers N' O' m in
  says M e g ->
  exists g', says M'' e g' /\ (sized_ok M M' M'' en e -> forall f f', same_expr en (f_length f) (f_length f') ->
    same_expr en (f_length (g f)) (f_length (g' f'))).
Proof.
  cbv zeta. intros S.
  assert (D : forall k lit x, e = Property k lit -> denotes (with_numbers N O m) lit x ->
                exists x', denotes (with_numbers N' O' m) lit x' /\
                  (sized_ok (with_numbers N O m) M' (with_numbers N' O' m) en e -> called k ["length"%string] -> x en = x' en)).
  { intros k lit x -> H. destruct H as [lit s n Q W L|lit s Q X]; eexists; split.
    - eapply denotes_number; eassumption.
    - reflexivity.
    - eapply denotes_expression; eassumption.
    - intros B K. destruct (B _ Q) as (_ & Y & _). apply Y; assumption. }
  destruct S.
  all: try match goal with H : denotes _ _ _ |- _ => edestruct D as (x' & D' & E); [reflexivity|exact H|] end.
  all: clear D.
  11:{ eexists; split; [eapply says_length; eassumption|]. intros B f f' _. cbn [at_length f_length same_expr]. now apply E. }
  all: eexists; split; [econstructor; solve [eassumption|reflexivity]|intros _ f f' X; exact X].
Qed.
Lemma entries_sized N O N' N'' O' m en l gs :
  let M := with_numbers N O m in let M' := with_numbers N' O' m in let M'' := with_numbers N'' O' m in
  Forall2 (says M) l gs ->
  exists gs' gs'', Forall2 (says M') l gs' /\ Forall2 (says M'') l gs'' /\
    (Forall (sized_ok M M' M'' en) l -> forall f f' f'', alike_but en f f' -> same_expr en (f_length f) (f_length f'') ->
       alike en (fold_left (fun f g => g f) gs f)
         (with_length (f_length (fold_left (fun f g => g f) gs'' f'')) (fold_left (fun f g => g f) gs' f'))).
Proof.
  cbv zeta. intros HS. induction HS as [|e g l gs S HS (gs' & gs'' & F' & F'' & HA)].
  - exists [], []. split; [constructor|]. split; [constructor|]. intros _ f f' f'' R E. cbn [fold_left].
    unfold alike_but in R. destruct R. constructor; cbn in *; auto.
  - destruct (says_but N O N' O' (with_numbers N'' O' m) m en e g S) as (g' & S' & G').
    destruct (says_lengths N O N'' O' (with_numbers N' O' m) m en e g S) as (g'' & S'' & G'').
    exists (g' :: gs'), (g'' :: gs''). split; [now constructor|]. split; [now constructor|].
    intros B f f' f'' R E. inversion B; subst. cbn [fold_left]. apply HA; auto.
Qed.

(** ** Expressions *)
Lemma listed_text gets s : gets <> [] -> (in_the_list gets s <-> has_text s (join_names gets) = true).
Proof.
  intros NE. unfold in_the_list. generalize (join_names gets). intros t. split.
  - intros (_ & l & r & ->). induction l as [|c l IH]; cbn [app].
    + destruct (s ++ r) as [|c t'] eqn:E; cbn [has_text]; apply orb_true_iff; left; rewrite <- E; apply starts_with_app.
    + cbn [has_text]. now rewrite IH, orb_true_r.
  - intros H. split; [exact NE|]. induction t as [|c t IH]; cbn [has_text] in H; apply orb_true_iff in H as [H|H].
    + apply starts_with_iff in H as [r ->]. now exists [], r.
    + discriminate.
    + apply starts_with_iff in H as [r ->]. now exists [], r.
    + destruct (IH H) as (l & r & ->). now exists (c :: l), r.
Qed.
Lemma zero_scope key gets others scope : Forall a_name gets -> in_scope gets [] [] others scope -> forall x, scope x = asked key gets [] others x.
Proof.
  intros G SC x. destruct (SC x) as [S1 S2]. destruct (in_dec (list_eq_dec Byte.byte_eq_dec) x gets) as [I|I].
  - destruct (S1 I) as (n & HN & ->). rewrite (asked_in _ _ _ _ _ G I). cbn [find].
    destruct HN as [i j f z H|_]; [destruct i; discriminate|reflexivity].
  - rewrite (asked_out _ _ _ _ _ G I). now apply S2.
Qed.
Lemma handed_scope key gets vars others scope : Forall a_name gets -> handed_in gets key vars others scope -> forall x, scope x = asked key gets vars others x.
Proof.
  intros G SC x. destruct (SC x) as [S1 S2]. destruct (in_dec (list_eq_dec Byte.byte_eq_dec) x gets) as [I|I].
  - destruct (S1 I) as (n & HN & ->). rewrite (asked_in _ _ _ _ _ G I). f_equal. f_equal. clear -HN.
    assert (NF : forall l, ~ In (key x) (map fst l) -> find (fun kv : nat * N => Nat.eqb (fst kv) (key x)) l = None).
    { intros l H. destruct (find _ l) as [[k m]|] eqn:E; [|reflexivity]. apply find_some in E as [E K]. cbn in K. apply Nat.eqb_eq in K. elim H. rewrite <- K. now apply (in_map fst) in E. }
    destruct HN as [(l & r & -> & NI)|[NI ->]].
    + induction l as [|[k m] l IH]; cbn [app find fst] in *; [now rewrite Nat.eqb_refl|].
      destruct (Nat.eqb_spec k (key x)) as [->|N]; [elim NI; left; reflexivity|]. apply IH. intros H. apply NI. now right.
    + now rewrite (NF vars NI).
  - rewrite (asked_out _ _ _ _ _ G I). now apply S2.
Qed.
Lemma zero_handed key gets others scope : in_scope gets [] [] others scope -> handed_in gets key [] others scope.
Proof.
  intros SC x. destruct (SC x) as [S1 S2]. split; [|exact S2]. intros I. destruct (S1 I) as (n & HN & E). exists n. split; [|exact E].
  right. split; [intros []|]. destruct HN as [i j f z H|_]; [destruct i; discriminate|reflexivity].
Qed.
Lemma scope_number A scope scope' fields s z : (forall x, scope x = scope' x) ->
  (number_is A scope fields s z -> number_is A scope' fields s z) /\ (order_is A scope fields s z -> order_is A scope' fields s z).
Proof.
  intros H.
  assert (X : forall e, eval A (decoder_scope fields scope) e = eval A (decoder_scope fields scope') e).
  { intros e. assert (E : forall x, decoder_scope fields scope x = decoder_scope fields scope' x).
    { intros x. unfold decoder_scope. destruct (find _ _) as [[y v]|]; [reflexivity|apply H]. }
    induction e as [n|x|e IH f|e IH t|o a IHa b IHb]; cbn; rewrite ?IH, ?IHa, ?IHb; auto. }
  split; intros (e & v & R & EV & C); exists e, v; rewrite <- X; auto.
Qed.
Lemma length_agrees A others gets names vs text i z : let before := combine (firstn i names) (firstn i vs) in
  number_is A others before text z -> NoDup names -> length vs = length names -> apart (combine names vs) others ->
  (in_the_list gets text -> no_field names text) -> (~ in_the_list gets text -> one_field_first names text) ->
  forall en, encoder_number A others (asked_code gets) names vs text en = z.
Proof.
  intros before H D L AP O1 O2 en. unfold asked_code.
  assert (P : one_field_first names text -> encoder_number A others var_code names vs text en = z).
  { intros O. destruct (numbers_agree A others names vs text i [] z H) as [_ X]. now apply X. }
  destruct gets as [|g gets].
  { unfold encoder_number, length_code. apply P, O2. intros [N _]. now apply N. }
  unfold encoder_number, length_code. destruct (has_text text (join_names (g :: gets))) eqn:E.
  - apply listed_text in E; [|discriminate]. specialize (O1 E).
    assert (EC : combine names vs = before ++ combine (skipn i names) (skipn i vs)) by apply combine_split.
    assert (F : map fst (combine names vs) = names) by (apply map_fst_combine; lia). rewrite EC in F, AP |- *.
    destruct (C66_length _ (with_self A) (held before) (held (combine (skipn i names) (skipn i vs)))
                (Self_ (before ++ combine (skipn i names) (skipn i vs))) (held_all others) (g :: gets) text (Held (VInt z))) as [[_ X]|[N _]].
    + rewrite <- held_app. apply self_value. now rewrite F.
    + rewrite <- held_app. now apply apart_held.
    + apply E.
    + unfold length_code. destruct (has_text _ _); now apply number_decoded.
    + unfold length_code in X. rewrite (proj1 (listed_text (g :: gets) text ltac:(discriminate)) E) in X. now rewrite X.
    + elim N. rewrite <- held_app, held_fst, F. exact O1.
  - apply P, O2. intros X. apply listed_text in X; [|discriminate]. congruence.
Qed.

(** ** Fields *)
Lemma alike_set_vars en f g l : alike en f g -> alike en f (set_vars l g).
Proof. intros []. constructor; assumption. Qed.
Lemma asking_written A others key gets vars scope vs names : (forall x, scope x = asked key gets vars others x) ->
  NoDup names -> length vs = length names -> apart (combine names vs) scope ->
  forall before fs l, fields_hand A others key gets before fs l -> names = before ++ map s_name fs ->
  (forall i f l, nth_error fs i = Some f -> first_line ["jbytes"%string] (s_lines f) l ->
     Forall (asking_writable A scope gets names (combine (firstn (length before + i) names) (firstn (length before + i) vs))) l) ->
  exists out, read_asking (fun code => asking_number A others key gets code names vs) gets fs = Some out /\
    map n_name out = map s_name fs /\ Forall2 (fun f g => snd f = snd g) (nameless out) l /\
    (forall i f g, nth_error (nameless out) i = Some f -> nth_error l i = Some g ->
       alike (mkenv (firstn (length before + i) vs) vars) (fst f) (fst g)).
Proof.
  intros EZ HD HL HA0 before fs l H.
  assert (HA : apart (combine names vs) (asked key gets vars others)).
  { destruct HA0 as (A1 & A2 & A3). split; [now rewrite <- EZ|]. split; [exact A2|]. intros x Hx. rewrite <- EZ. now apply A3. }
  induction H as [before|before f r l gs xs more L D S V W H IH]; intros HN HW.
  - exists []. split; [reflexivity|]. split; [reflexivity|]. split; [apply Forall2_nil|]. intros [|i]; discriminate.
  - destruct IH as (out & R & EN & ET & EA).
    { rewrite HN, <- app_assoc. reflexivity. }
    { intros i f' l' Hi Hl. rewrite app_length. cbn [length]. replace (length before + 1 + i)%nat with (length before + Datatypes.S i)%nat by lia. exact (HW (Datatypes.S i) f' l' Hi Hl). }
    pose proof (HW 0%nat f l eq_refl L) as HW0. rewrite Nat.add_0_r in HW0.
    assert (EB : firstn (length before) names = before) by (rewrite HN; rewrite firstn_app, Nat.sub_diag, firstn_all; cbn; apply app_nil_r).
    set (number := fun code => asking_number A others key gets code names vs) in *.
    set (en := mkenv (firstn (length before) vs) vars).
    destruct (entries_sized (handed_number A others key gets var_code before) (handed_number A others key gets GenExpr.order_code before)
                (number var_code) (number (asked_code gets)) (number GenExpr.order_code) (s_meaning f) en l gs S) as (gs' & gs'' & S' & S'' & G).
    destruct (C50_all _ _ _ S') as (fa & P & Q). destruct (C50_all _ _ _ S'') as (fa' & P' & Q').
    assert (fa' = fa) by congruence. subst fa'.
    cbn [read_asking]. rewrite (first_line_parsed _ _ L D), P, R, Q, Q'.
    eexists. split; [reflexivity|]. unfold nameless in *. cbn [map n_spec n_type n_name]. rewrite EN. split; [reflexivity|]. split; [constructor; [reflexivity|exact ET]|].
    intros [|i] f' g' Hf Hg; cbn [nth_error] in Hf, Hg.
    + injection Hf as <-. injection Hg as <-. cbn [fst]. rewrite Nat.add_0_r. fold en. apply alike_set_vars, alike_sym, G.
      * eapply Forall_impl; [|exact HW0]. intros [i|k lit] X; [exact Logic.I|]. intros s Q0. destruct (X s Q0) as [X1 X2]. cbn [m_number m_order with_numbers].
        assert (N : forall code z, decoder_number A (asked key gets vars others) code before s en = z -> handed_number A others key gets code before s en = z) by (intros; assumption).
        split; [|split].
        -- intros K NK E. destruct (X1 K E) as ((z & Z) & _ & O). apply (scope_number A _ _ _ s z EZ) in Z.
           destruct (numbers_agree A (asked key gets vars others) names vs s (length before) vars z Z) as [E1 E2]. rewrite EB in E1.
           rewrite (N _ _ E1). symmetry. apply E2; auto. apply O. intros [C _]. exact (NK C).
        -- intros K E. destruct (X1 (called_sub k ["length"%string] number_keys K ltac:(intros ? [<-|[]]; left; reflexivity)) E) as ((z & Z) & O1 & O2). apply (scope_number A _ _ _ s z EZ) in Z.
           destruct (numbers_agree A (asked key gets vars others) names vs s (length before) vars z Z) as [E1 _]. rewrite EB in E1.
           rewrite (N _ _ E1). symmetry. apply (length_agrees A (asked key gets vars others) gets names vs s (length before) z Z); auto.
           intros NI. apply O2. intros [_ C]. exact (NI C).
        -- intros K E. destruct (X2 K E) as (O & z & Z). apply (scope_number A _ _ _ s z EZ) in Z.
           destruct (orders_agree A (asked key gets vars others) names vs s (length before) vars z Z) as [E1 E2]. rewrite EB in E1.
           rewrite (N _ _ E1). symmetry. now apply E2.
      * unfold alike_but. apply alike_refl.
      * reflexivity.
    + rewrite app_length in EA. cbn [length] in EA. replace (length before + Datatypes.S i)%nat with (length before + 1 + i)%nat by lia. now apply EA.
Qed.

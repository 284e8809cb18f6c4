(** Lemmas for C87. *)
From Coq Require Import Ascii String.
From Verif Require Import Base BaseLemmas Ints SpecOps Reader Writer Sugar TextSpec Text AttrParse AttrSpec AttrLemmas EnumText EnumTextSpec EnumTextLemmas GenExpr GenExprSpec
  GenExprLemmas PropsExpr PropsAttr GenDecode GenSpec Source SourceSpec SourceLemmas EnumSource EnumSourceSpec EnumSourceLemmas Decode Encode
  VarSource VarSourceSpec VarSourceLemmas VarEncode VarEncodeSpec VarEncodeLemmas Schema.
Close Scope string_scope.

(** ** Entries in the encoder of a variant *)
Definition alike_two (en : env) (f g : fspec) : Prop := alike en f (with_length (f_length f) (with_offset (f_offset f) g)).
Definition three_ok (M M' Mo Ml : meaning) (en : env) (e : entry) : Prop :=
  match e with
  | Tag _ => True
  | Property k lit => forall s, string_literal lit s ->
      (called k number_keys -> ~ called k ["offset"%string] -> ~ called k ["length"%string] -> expression s -> m_number M s en = m_number M' s en) /\
      (called k ["offset"%string] -> expression s -> m_number M s en = m_number Mo s en) /\
      (called k ["length"%string] -> expression s -> m_number M s en = m_number Ml s en) /\
      (called k ["byteorder"%string] -> ~ called s ["BE"; ">"; "0"; "LE"; "<"; "1"]%string -> m_order M s en = m_order M' s en)
  end.
Ltac finish_two := let H := fresh in intros _ ? ? H; unfold alike_two in *; destruct H; constructor; cbn in *; auto.
Ltac number_two :=
  let B := fresh in let AL := fresh in intros B ? ? AL;
  match goal with
  | K : called ?k _, E : three_ok _ _ _ _ _ _ -> ~ called ?k _ -> ~ called ?k _ -> _ |- _ =>
      specialize (E B); unfold called in K, E; cbn [map In] in K;
      repeat (destruct K as [K|K]; [subst k|]); try contradiction;
      (specialize (E ltac:(let X := fresh in intros [X|[]]; discriminate X) ltac:(let X := fresh in intros [X|[]]; discriminate X)))
  end; unfold alike_two in *; destruct AL; constructor; cbn in *; auto.
Lemma says_two N O N' O' Mo Ml m en e g :
  let M := with_numbers N O m in let M' := with_numbers N' O' m in
  says M e g ->
  exists g', says M' e g' /\ (three_ok M M' Mo Ml en e -> forall f f', alike_two en f f' -> alike_two en (g f) (g' f')).
Proof.
  cbv zeta. intros S.
  assert (D : forall k lit x, e = Property k lit -> called k number_keys -> denotes (with_numbers N O m) lit x ->
                exists x', denotes (with_numbers N' O' m) lit x' /\
                  (three_ok (with_numbers N O m) (with_numbers N' O' m) Mo Ml en e -> ~ called k ["offset"%string] -> ~ called k ["length"%string] -> x en = x' en)).
  { intros k lit x -> K H. destruct H as [lit s n Q W L|lit s Q X]; eexists; split.
    - eapply denotes_number; eassumption.
    - reflexivity.
    - eapply denotes_expression; eassumption.
    - intros B NO NL. apply (proj1 (B _ Q)); assumption. }
  destruct S.
  all: try match goal with H : denotes _ _ _ |- _ =>
         edestruct D as (x' & D' & E); [reflexivity|eapply called_sub; [eassumption|intros ?; cbn; tauto]|exact H|] end.
  all: clear D.
  - eexists; split; [apply says_untake|finish_two].
  - eexists; split; [apply says_remaining|finish_two].
  - eexists; split; [apply says_bits_flag|finish_two].
  - eexists; split; [apply says_skip|finish_two].
  - eexists; split; [apply says_skip_encode|finish_two].
  - eexists; split; [apply says_skip_decode|finish_two].
  - eexists; split; [apply says_from_str|finish_two].
  - eexists; split; [eapply says_big; eassumption|finish_two].
  - eexists; split; [eapply says_little; eassumption|finish_two].
  - eexists; split; [eapply says_order; eassumption|].
    intros B f f' AL. unfold alike_two in *. destruct AL. constructor; cbn in *; auto.
    match goal with H : string_literal _ _ |- _ => destruct (B _ H) as (_ & _ & _ & X) end. apply X; assumption.
  - eexists; split; [eapply says_length; eassumption|finish_two].
  - eexists; split; [eapply says_offset; eassumption|finish_two].
  - eexists; split; [eapply says_count; eassumption|number_two].
  - eexists; split; [eapply says_try_count; eassumption|number_two].
  - eexists; split; [eapply says_branch; eassumption|number_two].
  - eexists; split; [eapply says_bits; eassumption|number_two].
  - eexists; split; [eapply says_bits_start; eassumption|number_two].
  - eexists; split; [eapply says_byte_count; eassumption|number_two].
  - eexists; split; [eapply says_outside; eassumption|number_two].
  - eexists; split; [eapply says_full; eassumption|finish_two].
  - eexists; split; [eapply says_key; eassumption|finish_two].
  - eexists; split; [eapply says_split; eassumption|finish_two].
  - eexists; split; [eapply says_linend; eassumption|finish_two].
  - eexists; split; [eapply says_loop; eassumption|finish_two].
  - eexists; split; [eapply says_if; eassumption|finish_two].
  - eexists; split; [eapply says_value_decode; eassumption|finish_two].
  - eexists; split; [eapply says_value_encode; eassumption|finish_two].
  - eexists; split; [eapply says_check; eassumption|finish_two].
  - eexists; split; [eapply says_variables; eassumption|finish_two].
Qed.
Lemma entries_three N O N' No Nl O' m en l gs :
  let M := with_numbers N O m in let M' := with_numbers N' O' m in let Mo := with_numbers No O' m in let Ml := with_numbers Nl O' m in
  Forall2 (says M) l gs ->
  exists gs' go gl, Forall2 (says M') l gs' /\ Forall2 (says Mo) l go /\ Forall2 (says Ml) l gl /\
    (Forall (three_ok M M' Mo Ml en) l -> forall f f' fo fl, alike_two en f f' -> same_expr en (f_offset f) (f_offset fo) ->
       same_expr en (f_length f) (f_length fl) ->
       alike en (fold_left (fun f g => g f) gs f)
         (with_length (f_length (fold_left (fun f g => g f) gl fl))
            (with_offset (f_offset (fold_left (fun f g => g f) go fo)) (fold_left (fun f g => g f) gs' f')))).
Proof.
  cbv zeta. intros HS. induction HS as [|e g l gs S HS (gs' & go & gl & F' & Fo & Fl & HA)].
  - exists [], [], []. do 3 (split; [constructor|]). intros _ f f' fo fl R E1 E2. cbn [fold_left].
    unfold alike_two in R. destruct R. constructor; cbn in *; auto.
  - set (M := with_numbers N O m) in *. set (Mo := with_numbers No O' m) in *. set (Ml := with_numbers Nl O' m) in *.
    destruct (says_two N O N' O' Mo Ml m en e g S) as (g' & S' & G').
    destruct (says_offsets N O No O' M m en e g S) as (g1 & S1 & G1).
    destruct (says_lengths N O Nl O' M m en e g S) as (g2 & S2 & G2).
    exists (g' :: gs'), (g1 :: go), (g2 :: gl). do 3 (split; [now constructor|]).
    intros B f f' fo fl R E1 E2. inversion B as [|? ? B1 B2]; subst. cbn [fold_left]. apply HA; auto.
    + apply G1; [|exact E1]. destruct e as [i|k lit]; [exact Logic.I|]. intros s Q. destruct (B1 s Q) as (_ & X & _ & _). auto.
    + apply G2; [|exact E2]. destruct e as [i|k lit]; [exact Logic.I|]. intros s Q. destruct (B1 s Q) as (_ & _ & X & _). auto.
Qed.

(** ** Fields in the encoder of a variant *)
Lemma asked_bound gets named s : (in_the_list gets s /\ asked_bound_code gets named s = var_code false s) \/
  (~ in_the_list gets s /\ asked_bound_code gets named s = bound_code named s).
Proof.
  unfold asked_bound_code. destruct gets as [|g gets]; [right; split; [intros [N _]; now apply N|reflexivity]|].
  destruct (has_text s (join_names (g :: gets))) eqn:E; [left|right]; (split; [|reflexivity]).
  - now apply listed_text in E.
  - intros X. apply listed_text in X; [congruence|discriminate].
Qed.
Section Fields.
Variables (A : arithmetic val) (others : bytes -> option val) (key : bytes -> nat) (gets : list bytes) (named : bool) (names : list bytes) (vs : list val) (vars : list (nat * N)).
Let number := fun code => asking_variant_number A others key gets code names vs.
Lemma fields_asking before fs l : fields_mean (handed_number A others key gets) before fs l ->
  (forall f l, In f fs -> first_line ["jbytes"%string] (s_lines f) l -> Forall ordinary_entry l) ->
  exists out, read_bound_asking number gets named fs = Some out /\ map n_name out = map s_name fs /\
    Forall2 (fun f g => snd f = snd g) (nameless out) l /\
    (forall f, In f out -> f_from_str (n_spec f) = None /\ f_value_encode (n_spec f) = None) /\
    forall scope, Forall a_name gets -> handed_in gets key vars others scope ->
    (NoDup names -> length vs = length names -> (forall x, In x names -> scope x = None) -> names = before ++ map s_name fs ->
     (forall i f l, nth_error fs i = Some f -> first_line ["jbytes"%string] (s_lines f) l ->
        Forall (asking_variant_writable A scope gets named names (combine (firstn (length before + i) names) (firstn (length before + i) vs))) l) ->
     forall i f g, nth_error (nameless out) i = Some f -> nth_error l i = Some g ->
       alike (mkenv (firstn (length before + i) vs) vars) (fst f) (fst g)).
Proof.
  intros H. induction H as [before|before f r l gs more L D S V H IH]; intros HO.
  - exists []. split; [reflexivity|]. split; [reflexivity|]. split; [constructor|]. split; [easy|]. intros scope _ _ _ _ _ _ _ [|i]; discriminate.
  - destruct IH as (out & R & EN & ET & EF & EA); [intros f' l' Hf; apply HO; now right|].
    set (en := mkenv (firstn (length before) vs) vars).
    destruct (entries_three (handed_number A others key gets var_code before) (handed_number A others key gets GenExpr.order_code before)
      (number (bound_code named)) (number star_code) (number (asked_bound_code gets named)) (number (GenExpr.order_code false)) (s_meaning f) en l gs S)
      as (gs' & go & gl & S' & So & Sl & G).
    destruct (C50_all _ _ _ S') as (fa & P & Q). destruct (C50_all _ _ _ So) as (fa' & P' & Q'). rewrite P in P'. injection P' as <-.
    destruct (C50_all _ _ _ Sl) as (fa' & P' & Q''). rewrite P in P'. injection P' as <-.
    cbn [read_bound_asking]. rewrite (first_line_parsed _ _ L D), P, R. eexists. split; [reflexivity|].
    unfold nameless in *. cbn [map n_name n_spec n_type]. rewrite EN. split; [reflexivity|]. split; [constructor; [reflexivity|exact ET]|]. rewrite Q, Q', Q''. split.
    + intros f' [<-|Hf]; [|now apply EF]. cbn [n_spec with_offset with_length f_from_str f_value_encode].
      destruct (ordinary_entries _ _ _ S' (HO f l (or_introl eq_refl) L) plain) as [-> ->]. split; reflexivity.
    + intros scope HG HS HD HL HX HN HW. pose proof (handed_scope key gets vars others scope HG HS) as EZ.
      assert (HX' : forall x, In x names -> asked key gets vars others x = None) by (intros x Hx; rewrite <- EZ; auto).
      assert (EV : forall fields e, eval A (decoder_scope fields scope) e = eval A (decoder_scope fields (asked key gets vars others)) e).
      { intros fields e. assert (E : forall x, decoder_scope fields scope x = decoder_scope fields (asked key gets vars others) x).
        { intros x. unfold decoder_scope. destruct (find _ _) as [[y v]|]; [reflexivity|apply EZ]. }
        induction e as [n|x|e' IH f'|e' IH t|o a IHa b IHb]; cbn; rewrite ?IH, ?IHa, ?IHb; auto. }
      intros [|i] f' g' Hf Hg; cbn [nth_error] in Hf, Hg.
      * injection Hf as <-. injection Hg as <-. cbn [fst]. rewrite Nat.add_0_r. fold en. apply alike_sym, G; [|apply alike_refl|exact Logic.I|exact Logic.I].
        pose proof (HW 0%nat f l eq_refl L) as HW0. rewrite Nat.add_0_r in HW0.
        assert (EB : firstn (length before) names = before) by (rewrite HN; rewrite firstn_app, Nat.sub_diag, firstn_all; cbn; apply app_nil_r).
        eapply Forall_impl; [|exact HW0]. intros [i|k lit] W; [exact Logic.I|]. intros s Q0. destruct (W s Q0) as [W1 W2].
        cbn [m_number m_order with_numbers]. unfold number, asking_variant_number, handed_number. cbn [ev_vars en].
        assert (NB : forall t v z, reads_as Disjunction s t -> plain_expr t -> eval A (decoder_scope (combine (firstn (length before) names) (firstn (length before) vs)) scope) t = Some v ->
          a_cast A (list_byte_of_string "usize") v = Some (VInt z) ->
          decoder_number A (asked key gets vars others) var_code before s en = z /\
          (name_first names s -> forall en, variant_number A (asked key gets vars others) star_code names vs s en = z) /\
          ((forall x, In x names -> t <> EName x) -> forall en, variant_number A (asked key gets vars others) (var_code false) names vs s en = z)).
        { intros t v z T1 T2 T3 T4. rewrite EV in T3.
          destruct (bound_number A (asked key gets vars others) names vs HD HL HX' s (length before) vars t v z T1 T2 T3 T4) as (E1 & E2 & E3).
          rewrite EB in E1. auto. }
        split; [|split; [|split]].
        -- intros K NO NL X. destruct (W1 K X) as (t & v & z & T1 & T2 & T3 & T4 & T5 & T6 & T7).
           destruct (NB t v z T1 T2 T3 T4) as (E1 & E2 & E3). rewrite E1. symmetry.
           assert (NV : ~ (called k ["length"%string] /\ in_the_list gets s)) by (intros [C _]; exact (NL C)).
           destruct named; [apply E2; auto|apply E3; auto].
        -- intros K X. destruct (W1 (called_sub k ["offset"%string] number_keys K ltac:(intros ? [<-|[]]; cbn; tauto)) X) as (t & v & z & T1 & T2 & T3 & T4 & T5 & T6 & T7).
           destruct (NB t v z T1 T2 T3 T4) as (E1 & E2 & E3). rewrite E1. symmetry. apply E2, T6; [|auto].
           intros [[C|[]] _]. destruct K as [K|[]]. rewrite <- K in C. discriminate C.
        -- intros K X. destruct (W1 (called_sub k ["length"%string] number_keys K ltac:(intros ? [<-|[]]; cbn; tauto)) X) as (t & v & z & T1 & T2 & T3 & T4 & T5 & T6 & T7).
           destruct (NB t v z T1 T2 T3 T4) as (E1 & E2 & E3). rewrite E1. symmetry. unfold variant_number.
           destruct (asked_bound gets named s) as [[I ->]|[I ->]]; [exact (E3 (T5 (conj K I)) en)|].
           assert (NV : ~ (called k ["length"%string] /\ in_the_list gets s)) by (intros [_ C]; exact (I C)).
           destruct named; [exact (E2 (T6 NV (or_introl eq_refl)) en)|]. refine (E3 (T7 eq_refl _) en).
           intros [C|[]]. destruct K as [K|[]]. rewrite <- K in C. discriminate C.
        -- intros K X. destruct (W2 K X) as (t & v & z & T1 & T2 & T3 & T4 & T5). rewrite EV in T3.
           destruct (bound_order A (asked key gets vars others) names vs HD HL HX' s (length before) vars t v z T1 T2 T3 T4 T5) as (E1 & E2).
           rewrite EB in E1. unfold en. rewrite E1. symmetry. apply E2.
      * rewrite app_length in EA. cbn [length] in EA. replace (length before + Datatypes.S i)%nat with (length before + 1 + i)%nat by lia.
        apply (EA scope); auto; [rewrite HN, <- app_assoc; reflexivity|].
        intros j f0 l0 Hj Hl. replace (length before + 1 + j)%nat with (length before + Datatypes.S j)%nat by lia. exact (HW (Datatypes.S j) f0 l0 Hj Hl).
Qed.
End Fields.

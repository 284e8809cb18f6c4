(** C87: encoders of enums that ask for variables. *)
From Coq Require Import Ascii String.
From Verif Require Import Base BaseLemmas Ints SpecOps Reader Writer Sugar TextSpec Text AttrParse AttrSpec AttrLemmas JDefaultSpec EnumText EnumTextSpec EnumTextLemmas PropsEnumText
  GenExpr GenExprSpec GenExprLemmas PropsExpr PropsAttr PropsVariantExpr GenDecode GenSpec PropsGen GenEncode GenEncodeSpec PropsGenEncode Source SourceSpec SourceLemmas PropsSource
  EnumSource EnumSourceSpec EnumSourceLemmas PropsEnumSource FieldSpec PropsModifiers
  Decode Encode Spec Collections Containers NetLemmas PropsContainers WireSpec Examples VarSource VarSourceSpec VarSourceLemmas PropsVarSource PropsVarEnum
  VarEncode VarEncodeSpec VarEncodeLemmas PropsVarEncode VarEnumEncodeLemmas Schema.
Close Scope string_scope.

(** The encoder of an enum with variables compiles, and writes the type the text describes,
    with the values that are handed on (a hand-written encoder may do so). *)
Theorem C87_handed : forall pm A others key s gets e vs vars scope i x ys, enum_asks pm A others key s gets e vs -> Forall free_variable gets ->
  handed_in gets key vars others scope ->
  nth_error (g_variants s) i = Some x -> length ys = length (x_fields x) ->
  (forall y, In y (map s_name (x_fields x)) -> scope y = None) -> fields_asking_writable A scope gets x ys ->
  exists w, asking_enum_encoder A others key s ys = Some w /\ (forall taken, enum_encoder_compiles pm w taken = true) /\
    forall ca fa b, k_vars ca = vars -> run_enum_encoder pm w ca fa i ys b = enc (TEnum e vs) ca fa (VVariant i ys) b.
Proof.
  intros pm A others key s gets e vs vars scope i x ys [HM (l & L & names & DN & W & EG & OV) FR] FV SC HI HL HX HW.
  assert (G : Forall a_name gets) by (subst gets; exact (decided_names _ _ _ DN)).
  set (bf := fun x => read_bound_asking (fun code => asking_variant_number A others key gets code (map s_name (x_fields x)) ys) gets (x_named x) (x_fields x)).
  destruct (encoder_means no_codec pm (handed_number A others key gets) bf (fun l => l = vars) s e vs i x ys) as (w & W1 & W2 & W3); auto.
  - intros x' v fs H. destruct (fields_asking A others key gets (x_named x') (map s_name (x_fields x')) ys vars [] (x_fields x') fs (vs_fields _ _ _ _ _ H) (vs_ordinary _ _ _ _ _ H))
      as (out & X). exists out. unfold bf. tauto.
  - intros vars' v fs out -> H RF j f g Hf Hg.
    destruct (fields_asking A others key gets (x_named x) (map s_name (x_fields x)) ys vars [] (x_fields x) fs (vs_fields _ _ _ _ _ H) (vs_ordinary _ _ _ _ _ H))
      as (out' & RF' & EN & ET & _ & EA). unfold bf in RF. rewrite RF in RF'. injection RF' as <-.
    destruct (variant_names _ _ _ _ _ H) as [ND _]. apply (EA scope G SC ND); auto. now rewrite map_length.
  - exists w. split; [|split; [exact W2|exact W3]]. unfold asking_enum_encoder. rewrite (asked_read _ _ _ L DN W), <- EG.
    assert (NC : container_codec (g_container s) = false).
    { destruct (es_container _ _ _ _ _ _ HM) as (l' & L' & _ & NC & _). exact (no_codec_read _ _ L' NC). }
    rewrite NC, all_usable; [exact W1|exact G|].
    rewrite Forall_forall in *. intros y Hy [I|I]; [apply (FR y Hy); right; left; exact I|].
    destruct (FV y Hy) as [F1 F2]. cbn [map encoder_taken In] in I.
    destruct I as [I|[I|[I|[I|[I|[I|[I|[I|[I|[]]]]]]]]]]; first [apply F1; rewrite <- I; cbn; tauto|apply F2; rewrite <- I; cbn; tauto].
Qed.
(** Encoders that are derived hand on nothing: there are zeros then. *)
Theorem C87_encoder : forall pm A others key s gets e vs scope i x ys, enum_asks pm A others key s gets e vs -> Forall free_variable gets ->
  in_scope gets [] [] others scope ->
  nth_error (g_variants s) i = Some x -> length ys = length (x_fields x) ->
  (forall y, In y (map s_name (x_fields x)) -> scope y = None) -> fields_asking_writable A scope gets x ys ->
  exists w, asking_enum_encoder A others key s ys = Some w /\ (forall vars, enum_encoder_compiles pm w vars = true) /\
    forall ca fa b, k_vars ca = [] -> run_enum_encoder pm w ca fa i ys b = enc (TEnum e vs) ca fa (VVariant i ys) b.
Proof.
  intros pm A others key s gets e vs scope i x ys HM FV SC. apply (C87_handed pm A others key s gets e vs [] scope i x ys HM FV). now apply zero_handed.
Qed.

(** What the encoder writes the decoder reads back, each derived for the enum as it is
    written. *)
Theorem C87_round_trip : forall pm A others key s gets e vs scope i x ys w rest, let t := TEnum e vs in
  reads_numbers pm -> enum_asks pm A others key s gets e vs -> Forall free_variable gets -> in_scope gets [] [] others scope ->
  nth_error (g_variants s) i = Some x -> length ys = length (x_fields x) ->
  (forall y, In y (map s_name (x_fields x)) -> scope y = None) -> fields_asking_writable A scope gets x ys ->
  well_formed t -> wire t no_cattr no_fattr (VVariant i ys) = Some w -> fits t no_cattr no_fattr (VVariant i ys) rest = true ->
  allocatable (w ++ rest) ->
  exists d c, asking_decoder A others key s = Some d /\ asking_enum_encoder A others key s ys = Some c /\
    enum_decoder_compiles pm d [] = true /\ enum_encoder_compiles pm c [] = true /\
    (exists n pos, run_enum_encoder pm c no_cattr no_fattr i ys buf_new = Ok n (mkbuf w pos)) /\
    run_enum_decoder pm d no_cattr no_fattr (w ++ rest) 0 = Ok (VVariant i ys) (size w).
Proof.
  intros pm A others key s gets e vs scope i x ys w rest t R S FV SC HX HL HO HW WF WI FI AL.
  destruct (C85_decoder pm A others key s gets e vs R S) as (d & D1 & D2 & D3).
  destruct (C87_encoder pm A others key s gets e vs scope i x ys S FV SC HX HL HO HW) as (c & E1 & E2 & E3).
  destruct (C30_round_trip t (VVariant i ys) w rest WF WI FI AL) as [He Hd].
  exists d, c. split; [exact D1|]. split; [exact E1|]. split; [apply D2|]. split; [apply E2|]. split.
  - rewrite (E3 no_cattr no_fattr buf_new eq_refl). fold t. unfold encode, encode_into in He. destruct (enc t no_cattr no_fattr (VVariant i ys) buf_new) as [n b| | |]; try discriminate.
    injection He as He. exists n, (b_pos b). destruct b. cbn in *. now subst.
  - rewrite D3. exact Hd.
Qed.

(** The code of [length] in a variant with names: with a value wherever the decoder has one,
    or it does not compile ([None]). *)
Theorem C87_length : forall V (A : arithmetic V) before after others gets text e v,
  NoDup (map fst (before ++ after)) -> (forall x, In x (map fst (before ++ after)) -> others x = None) ->
  reads_as Disjunction text e -> plain_expr e ->
  code_value A (decoder_scope before others) (var_code false text) = Some v ->
  let names := map fst (before ++ after) in
  let encoded := code_value (with_references A) (variant_scope (before ++ after) others) (asked_bound_code gets true text) in
  let works := (in_the_list gets text /\ ~ exists x, In x names /\ e = EName x) \/ (~ in_the_list gets text /\ name_first names text) in
  works /\ encoded = Some (Value v) \/ ~ works /\ encoded = None.
Proof.
  intros V A before after others gets text e v HN HA HR HP HD names encoded works.
  destruct (asked_bound gets true text) as [[I E]|[I E]]; unfold encoded, works; rewrite E.
  - destruct (C70_tuple V A before after others text e v HN HA HR HP HD) as [[X ->]|[X ->]]; [right|left]; (split; [|reflexivity]); fold names in X; tauto.
  - cbn [bound_code]. destruct (C70_named V A before after others text e v HN HA HR HP HD) as [[X ->]|[X ->]]; [left|right]; (split; [|reflexivity]); fold names in X; tauto.
Qed.
(** So a text that merely begins with a variable compiles in the decoder and not in the
    encoder: [#[jbytes(length = "length - 1")]]. *)
Theorem C87_sum_refuted : forall z, let scope x := if bytes_eqb x (txt "length") then Some (VInt z) else None in
  let text := txt "length - 1" in
  code_value integers (decoder_scope [] scope) (var_code false text) = Some (VInt (cast Usize (z - 1))) /\
  code_value (with_references integers) (variant_scope [(txt "value", VBytes [])] scope) (asked_bound_code lengths true text) = None /\
  code_value (with_references integers) (variant_scope [(txt "v0", VBytes [])] scope) (asked_bound_code lengths false text) = Some (Value (VInt (cast Usize (z - 1)))).
Proof. intros z scope text. repeat split; cbv -[Z.sub cast]; reflexivity. Qed.

(** ** Examples *)

(** The enum [Choice] of C85: [Read { #[jbytes(length = "length")] value: String }]. *)
Definition read_arm (m : meaning) : source_variant := nth 0 (g_variants (choice m)) (mksource_variant [] [] None m true []).
Lemma lengths_free : Forall free_variable lengths.
Proof. constructor; [|constructor]. split; vm_compute; intuition discriminate. Qed.
Lemma read_scope m n : forall y, In y (map s_name (x_fields (read_arm m))) -> length_of n y = None.
Proof. intros x [<-|[]]. reflexivity. Qed.
Lemma read_writable m n text : fields_asking_writable integers (length_of n) lengths (read_arm m) [VBytes text].
Proof.
  intros i f l Hi Hl. destruct i as [|[|i]]; [|discriminate..]. injection Hi as <-. cbn [s_lines value_field] in Hl. apply one_line in Hl. subst l.
  constructor; [|constructor]. intros s Q.
  apply quoted_literal in Q; [|vm_compute; intuition discriminate]. subst s.
  split; [|intros K; vm_compute in K; intuition discriminate]. intros _ _. exists (EName (txt "length")), (VInt (Z.of_N n)), (cast Usize (Z.of_N n)).
  assert (IL : in_the_list lengths (txt "length")) by (split; [discriminate|]; exists [], []; reflexivity).
  split; [apply (whole Atom), ra_name; exact (Forall_inv lengths_names)|]. split; [exact Logic.I|]. split; [reflexivity|]. split; [reflexivity|].
  split; [intros _ x [<-|[]]; discriminate|]. split; [intros N; elim N; split; [now left|exact IL]|discriminate].
Qed.
(** Its encoder, for any text, writes the number of the variant and the text. *)
Example C87_choice_case m text : exists w,
  asking_enum_encoder integers nothing_else short_key (choice m) [VBytes text] = Some w /\ enum_encoder_compiles sample_patterns w [] = true /\
  run_enum_encoder sample_patterns w no_cattr no_fattr 0 [VBytes text] buf_new = enc (TEnum choice_spec choice_variants) no_cattr no_fattr (VVariant 0 [VBytes text]) buf_new.
Proof.
  destruct (C87_encoder sample_patterns integers nothing_else short_key (choice m) lengths choice_spec choice_variants (length_of 0) 0 (read_arm m) [VBytes text]
    (C85_choice_case m) lengths_free zero_length_scope eq_refl eq_refl (read_scope m 0) (read_writable m 0 text)) as (w & E & K & X).
  exists w. split; [exact E|]. split; [apply K|]. now apply X.
Qed.

Example C87_handed_case m n text : exists w,
  asking_enum_encoder integers nothing_else short_key (choice m) [VBytes text] = Some w /\ enum_encoder_compiles sample_patterns w [] = true /\
  forall ca, k_vars ca = [(7%nat, 5); (short_key (txt "length"), n)] ->
  run_enum_encoder sample_patterns w ca no_fattr 0 [VBytes text] buf_new = enc (TEnum choice_spec choice_variants) ca no_fattr (VVariant 0 [VBytes text]) buf_new.
Proof.
  destruct (C87_handed sample_patterns integers nothing_else short_key (choice m) lengths choice_spec choice_variants _ (length_of n) 0 (read_arm m) [VBytes text]
    (C85_choice_case m) lengths_free (length_handed n) eq_refl eq_refl (read_scope m n) (read_writable m n text)) as (w & E & K & X).
  exists w. split; [exact E|]. split; [apply K|]. intros ca V. now apply X.
Qed.

(** On its own the decoder has 0 for [length] too. *)
Example C87_alone_case m : exists d c,
  asking_decoder integers nothing_else short_key (choice m) = Some d /\ asking_enum_encoder integers nothing_else short_key (choice m) [VBytes []] = Some c /\
  enum_decoder_compiles sample_patterns d [] = true /\ enum_encoder_compiles sample_patterns c [] = true /\
  (exists n pos, run_enum_encoder sample_patterns c no_cattr no_fattr 0 [VBytes []] buf_new = Ok n (mkbuf (hex [1]) pos)) /\
  run_enum_decoder sample_patterns d no_cattr no_fattr (hex [1] ++ txt "abc") 0 = Ok (VVariant 0 [VBytes []]) 1.
Proof.
  apply (C87_round_trip sample_patterns integers nothing_else short_key (choice m) lengths choice_spec choice_variants (length_of 0) 0 (read_arm m) [VBytes []]
    (hex [1]) (txt "abc") sample_reads (C85_choice_case m) lengths_free zero_length_scope eq_refl eq_refl (read_scope m 0) (read_writable m 0 [])).
  - unfold choice_spec, choice_variants, text_value. well.
  - vm_compute. reflexivity.
  - vm_compute. reflexivity.
  - vm_compute. intuition discriminate.
Qed.
(** [Message] of C85, with [Body] and [Choice] in it, meets the conditions of
    [C86_round_trip]. *)
Example C87_message_case m : let vs := [vi 1; vi 2; VList [VBytes (txt "ab")]; VVariant 0 [VBytes (txt "cd")]] in exists d e,
  handing_decoder integers nothing_else short_key (message m) = Some d /\
  asking_encoder integers nothing_else short_key (message m) vs = Some e /\
  struct_compiles d [] = true /\ encoder_compiles e [] = true /\
  (exists n pos, run_encoder enc e no_cattr no_fattr vs buf_new = Ok n (mkbuf (hex [1; 2] ++ txt "abcd") pos)) /\
  run_struct dec d no_cattr ((hex [1; 2] ++ txt "abcd") ++ txt "ef") 0 = Ok (VList vs) 6.
Proof.
  intros vs.
  destruct (C86_round_trip integers nothing_else short_key (message m) [] no_cspec (message_front ++ [(by_cmd, TEnum choice_spec choice_variants)]) nothing_else vs
    (hex [1; 2] ++ txt "abcd") (txt "ef") (C85_message_case m)) as (d & e & X).
  - constructor.
  - exact nothing_scope.
  - now left.
  - cbn. repeat constructor; cbn; intuition discriminate.
  - intros x Hx. cbn in Hx. repeat (destruct Hx as [<-|Hx]; [split; [cbn; intuition discriminate|eexists _, _; split; [reflexivity|cbv; intuition discriminate]]|]). destruct Hx.
  - reflexivity.
  - split; [reflexivity|]. split; [cbn; intuition discriminate|]. intros x _. reflexivity.
  - intros i f l Hi Hl. destruct i as [|[|[|[|i]]]]; cbn [message s_fields nth_error] in Hi; try (destruct i; discriminate); injection Hi as <-; cbn [s_lines] in Hl;
      first [apply no_line in Hl | apply one_line in Hl]; subst l; [constructor| |constructor|].
    + constructor; [|constructor]. intros s Q. split; intros K; vm_compute in K; intuition discriminate.
    + constructor; [|constructor]. intros s Q. apply quoted_literal in Q; [|vm_compute; intuition discriminate]. subst s.
      split; [|intros K; vm_compute in K; intuition discriminate]. intros _ _. split; [|split].
      * exists 1%Z. exists (EName (txt "cmd")), (vi 1). split; [|split; reflexivity]. apply (whole Atom), ra_name.
        repeat constructor; try (left; vm_compute; split; discriminate); try discriminate; right; left; vm_compute; split; discriminate.
      * intros K. vm_compute in K. intuition discriminate.
      * intros _. eexists _, []. split; [vm_compute; reflexivity|]. split; [now left|]. intros y [].
  - unfold message_front, by_cmd, text_value, choice_spec, choice_variants, text_value. cbn [app]. well.
  - vm_compute. reflexivity.
  - vm_compute. reflexivity.
  - vm_compute. intuition discriminate.
  - exists d, e. exact X.
Qed.

Print Assumptions C87_encoder.
Print Assumptions C87_handed.
Print Assumptions C87_round_trip.
Print Assumptions C87_length.
Print Assumptions C87_sum_refuted.

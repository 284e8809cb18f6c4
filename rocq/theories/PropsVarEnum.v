(** C85: variables of a struct in the variants of an enum. *)
From Coq Require Import Ascii String.
From Verif Require Import Base BaseLemmas Ints SpecOps Reader Writer Sugar TextSpec Text AttrParse AttrSpec AttrLemmas JDefaultSpec EnumText EnumTextSpec EnumTextLemmas
  PropsEnumText GenExpr GenExprSpec GenExprLemmas PropsExpr PropsAttr GenDecode GenSpec GenEncodeSpec PropsGen Source SourceSpec SourceLemmas PropsSource
  EnumSource EnumSourceSpec EnumSourceLemmas PropsEnumSource FieldSpec PropsModifiers Decode Collections Containers NetLemmas Examples
  VarSource VarSourceSpec VarSourceLemmas PropsVarSource Schema.
Close Scope string_scope.

(** The decoder is derived for the type the text describes, with the variables it asks for
    in the expressions; it compiles, and decodes this type. What the expressions stand for
    is said by C84_numbers. *)
Theorem C85_decoder : forall pm A others key s gets e vs, reads_numbers pm -> enum_asks pm A others key s gets e vs ->
  exists d, asking_decoder A others key s = Some d /\ (forall vars, enum_decoder_compiles pm d vars = true) /\
    forall ca fa dt p, run_enum_decoder pm d ca fa dt p = dec (TEnum e vs) ca fa dt p.
Proof.
  intros pm A others key s gets e vs R [H (l & L & names & DN & W & EG & OV) FR].
  destruct (decoder_means _ _ _ _ _ _ R H) as (d & D). exists d. unfold asking_decoder. rewrite (asked_read _ _ _ L DN W), <- EG.
  assert (NC : container_codec (g_container s) = false).
  { destruct (es_container _ _ _ _ _ _ H) as (l' & L' & _ & NC & _). exact (no_codec_read _ _ L' NC). }
  rewrite NC, all_usable; [exact D| |].
  - subst gets. exact (decided_names _ _ _ DN).
  - rewrite Forall_forall in *. intros x Hx [E|[E|I]].
    + apply (FR x Hx). now left.
    + apply (FR x Hx). right. now left.
    + exact (OV x Hx I).
Qed.

(** A struct with the enum as its last field, both as written: they compile, and the enum
    is decoded behind the fields before it with the variables these publish, as the
    attributes of the field say ([branch], ..). *)
Theorem C85_nested : forall pm A others key s0 s1 fs f c0 l0 g gets e vs, reads_numbers pm ->
  source_hands A others key s0 [] c0 (l0 ++ [(g, TEnum e vs)]) -> s_container s0 = [] -> s_fields s0 = fs ++ [f] ->
  enum_asks pm A others key s1 gets e vs ->
  NoDup (map s_name (s_fields s0)) -> (forall x, In x (map s_name (s_fields s0)) -> own_name x) ->
  written g -> for_the_codec g ->
  exists d0 d1, handing_decoder A others key s0 = Some d0 /\ asking_decoder A others key s1 = Some d1 /\
    struct_compiles d0 [] = true /\ (forall vars, enum_decoder_compiles pm d1 vars = true) /\
    fields_hand A others key [] [] fs l0 /\
    forall d p ys q, dec (TStruct true c0 l0) no_cattr no_fattr d p = Ok (VList ys) q ->
      length ys = length fs /\
      forall fa, conveys g (mkenv ys []) fa ->
        run_struct dec d0 no_cattr d p =
        match run_enum_decoder pm d1 (container_with c0 (published [] (map fst l0) [] ys)) fa d q with
        | Ok v r => Ok (VList (ys ++ [v])) r
        | Err e r => Err e r
        | Panic => Panic
        | Hang => Hang
        end.
Proof.
  intros pm A others key s0 s1 fs f c0 l0 g gets e vs R H0 HC HF H1 ND ON WG FG.
  destruct (nested_last _ _ _ _ _ _ _ _ _ _ H0 HC HF ND ON WG FG) as (d0 & E0 & K0 & HP & X).
  destruct (C85_decoder _ _ _ _ _ _ _ _ R H1) as (d1 & E1 & K1 & D1).
  exists d0, d1. do 5 (split; [assumption|]). intros d p ys q HD. destruct (X d p ys q HD) as [HL Y]. split; [exact HL|].
  intros fa C. rewrite D1. exact (Y fa C).
Qed.

(** ** The example of the crate's tests (tests/test_modifier_variable_name.rs) *)

(** [struct Message { cmd: u8, #[jbytes(variable_name = "length")] length: u8, body: Body,
    #[jbytes(branch = "cmd")] enum_body: Choice }], [#[jbytes(get_variable_name = "length")]
    struct Body { #[jbytes(length = "length")] value: String }] and
    [#[jbytes(get_variable_name = "length")] enum Choice { #[jbytes(branch_value = 1)] Read {
    #[jbytes(length = "length")] value: String }, Write { #[jbytes(length = "length")]
    value: String }, #[jbytes(branch_default)] Unknown }] *)
Definition asks_length : attribute := jbytes_line [Property (txt "get_variable_name") (quoted (txt "length"))].
Definition value_field (m : meaning) : source_field :=
  mksource_field (txt "value") [jbytes_line [Property (txt "length") (quoted (txt "length"))]] m TString.
Definition body (m : meaning) : source := mksource [asks_length] [value_field m].
Definition choice (m : meaning) : source_enum :=
  mksource_enum [asks_length]
    [mksource_variant (txt "read") [jbytes_line [Property (txt "branch_value") (txt "1")]] None m true [value_field m];
     mksource_variant (txt "write") [] None m true [value_field m];
     mksource_variant (txt "unknown") [jbytes_line [Tag (txt "branch_default")]] None m true []].
Definition short_key (x : bytes) : nat := if bytes_eqb x (txt "length") then O else Datatypes.S (key_of x).
Lemma short_key_injective x y : short_key x = short_key y -> x = y.
Proof.
  unfold short_key. destruct (bytes_eqb x (txt "length")) eqn:X, (bytes_eqb y (txt "length")) eqn:Y; intros H; try discriminate.
  - apply bytes_eqb_eq in X, Y. congruence.
  - injection H as H. now apply key_of_injective.
Qed.
Definition lengths : list bytes := [txt "length"].
Definition text_value : fspec * ty :=
  (at_length (handed_number integers nothing_else short_key lengths var_code [] (txt "length")) plain, TString).
Definition choice_spec : espec := mkespec no_cspec ByTag false.
Definition choice_variants : list (vspec * list (fspec * ty)) :=
  [(mkvspec true (in_use plain) (txt "read") None false None (Some 1) None None, [text_value]);
   (mkvspec true plain (txt "write") None false None None None None, [text_value]);
   (mkvspec true (in_use plain) (txt "unknown") None true None None None None, [])].
Definition message (m : meaning) : source :=
  mksource [] [mksource_field (txt "cmd") [] m (TInt U8);
               mksource_field (txt "length") [jbytes_line [Property (txt "variable_name") (quoted (txt "length"))]] m (TInt U8);
               mksource_field (txt "body") [] m (TStruct true no_cspec [text_value]);
               mksource_field (txt "enum_body") [jbytes_line [Property (txt "branch") (quoted (txt "cmd"))]] m (TEnum choice_spec choice_variants)].
Definition message_front : list (fspec * ty) :=
  [(plain, TInt U8);
   (with_variables [(short_key (txt "length"), published_number integers nothing_else short_key [] [txt "cmd"; txt "length"] (txt "length"))] plain, TInt U8);
   (plain, TStruct true no_cspec [text_value])].
Definition by_cmd : fspec :=
  at_branch (handed_number integers nothing_else short_key [] var_code [txt "cmd"; txt "length"; txt "body"] (txt "cmd")) plain.

Lemma lengths_names : Forall a_name lengths.
Proof. repeat constructor; try (left; vm_compute; split; discriminate); try discriminate; right; left; vm_compute; split; discriminate. Qed.
Lemma asks_length_for : first_line ["jbytes"; "repr"]%string [asks_length] [Property (txt "get_variable_name") (quoted (txt "length"))] /\
  asks_for [Property (txt "get_variable_name") (quoted (txt "length"))] lengths.
Proof.
  assert (AN : about_names "get_variable_name" (Property (txt "get_variable_name") (quoted (txt "length"))) lengths).
  { apply (listed_entry "get_variable_name" lengths); [discriminate|exact lengths_names|]. split; [reflexivity|vm_compute; intuition discriminate]. }
  split; [apply this_line; now left|]. exists (Some lengths). split; [apply (decided_by _ []); [exact AN|easy]|]. split; [|split; [reflexivity|]].
  - intros k lit [[= <- <-]|[]] _. exists lengths. exact AN.
  - repeat constructor; intros I; vm_compute in I; intuition discriminate.
Qed.
Lemma value_entry m : Forall2 (says (field_meaning (handed_number integers nothing_else short_key lengths) [] (value_field m)))
  [Property (txt "length") (quoted (txt "length"))] [at_length (handed_number integers nothing_else short_key lengths var_code [] (txt "length"))].
Proof.
  constructor; [|constructor]. apply says_length; [left; reflexivity|]. apply denotes_expression with (s := txt "length"); [now apply literal_is|].
  apply starts_expression. vm_compute. discriminate.
Qed.
Lemma value_means m : fields_mean (handed_number integers nothing_else short_key lengths) [] [value_field m] [text_value].
Proof.
  apply (fields_more (handed_number integers nothing_else short_key lengths) [] (value_field m) [] [Property (txt "length") (quoted (txt "length"))]
    [at_length (handed_number integers nothing_else short_key lengths var_code [] (txt "length"))] []); [apply this_line; now left|apply no_default|apply value_entry| |constructor].
  intros k lit [[= <- <-]|[]]; vm_compute; intuition discriminate.
Qed.
Lemma value_ordinary m : forall f l, In f [value_field m] -> first_line ["jbytes"%string] (s_lines f) l -> Forall ordinary_entry l.
Proof. intros f l [<-|[]] Hl; cbn [s_lines value_field] in Hl. apply one_line in Hl. subst l. repeat (constructor; [vm_compute; intuition discriminate|]). constructor. Qed.
Lemma value_named m : NoDup (map s_name [value_field m]) /\ (forall f, In f [value_field m] -> own_name (s_name f) /\ ~ In (s_name f) tag_names).
Proof.
  split; [cbn; repeat constructor; cbn; intuition discriminate|].
  intros f [<-|[]]; (split; [split; [cbn; intuition discriminate|eexists _, _; split; [reflexivity|cbv; intuition discriminate]]|cbn; intuition discriminate]).
Qed.
Example C85_choice_case m : enum_asks sample_patterns integers nothing_else short_key (choice m) lengths choice_spec choice_variants.
Proof.
  constructor; [|exists [Property (txt "get_variable_name") (quoted (txt "length"))]; exact asks_length_for|].
  2:{ repeat constructor; intros I; vm_compute in I; intuition discriminate. }
  constructor.
  - eexists. split; [apply asks_length_for|]. split; [|split; [|split; [|split; [|split; [|split]]]]].
    + constructor; [|constructor]. right. right. right. left. now left.
    + constructor; [|constructor]. vm_compute. intuition discriminate.
    + apply undecided. intros e a [<-|[]] H. inversion H as [? ? K|? ? K]; subst; vm_compute in K; intuition discriminate.
    + apply undecided. intros e a [<-|[]] H. inversion H as [|? ? ? K]; subst; vm_compute in K; intuition discriminate.
    + split; [discriminate|]. intros [H|[]]; discriminate H.
    + apply ann_tag; [intros [H|[]]; discriminate H..|]. apply undecided. intros e a H X. destruct X as [k lit n K _].
      destruct H as [[= <- <-]|[]]. vm_compute in K. intuition discriminate.
    + intros [[H|[]] _]; discriminate H.
  - discriminate.
  - assert (LT : literal_text (txt "1") (txt "1")).
    { right. split; [reflexivity|]. split.
      - intros (l & r & E). assert (H : In (byte_of 92) (txt "1")) by (rewrite E; apply in_app_iff; right; now left). vm_compute in H. intuition discriminate.
      - intros (r & E). vm_compute in E. discriminate E. }
    constructor; [|constructor; [|constructor; [|constructor]]]; constructor; try reflexivity; cbn [fst snd choice_variants].
    + exists [Property (txt "branch_value") (txt "1")], [in_use]. split; [|split; [constructor; [|constructor]|reflexivity]].
      * constructor; cbn [v_default v_disc v_value v_range v_bits v_name v_bytes d_attrs d_disc d_name variant_of x_lines x_name x_disc].
        -- right. exists [], []. split; [intros a []|reflexivity].
        -- reflexivity.
        -- intros e [<-|[]]. cbn. tauto.
        -- intros k lit [[= <- <-]|[]] _. exists (txt "1"). exact LT.
        -- split; [discriminate|]. intros (i & [E|[]] & _). discriminate E.
        -- reflexivity.
        -- right. exists (txt "1"). split.
           ++ apply (decided_by _ [] _ []); [|intros ? ? []]. eexists _, _. split; [reflexivity|]. split; [left; reflexivity|exact LT].
           ++ left. exists 1. split; [left; constructor; [left; left; split; [|reflexivity]|]; lia|]. split; [lia|]. split; reflexivity.
        -- no_entry.
        -- no_entry.
      * apply variant_only. left. reflexivity.
    + apply value_means.
    + exact (value_ordinary m).
    + exact (value_named m).
    + exists [], []. split; [quiet|]. split; [constructor|reflexivity].
    + apply value_means.
    + exact (value_ordinary m).
    + exact (value_named m).
    + exists [Tag (txt "branch_default")], [in_use]. split; [|split; [constructor; [|constructor]|reflexivity]].
      * constructor; cbn [v_default v_disc v_value v_range v_bits v_name v_bytes d_attrs d_disc d_name variant_of x_lines x_name x_disc].
        -- right. exists [], []. split; [intros a []|reflexivity].
        -- reflexivity.
        -- intros e [<-|[]]. cbn. tauto.
        -- intros k lit [E|[]]. discriminate E.
        -- split; [|reflexivity]. intros _. exists (txt "branch_default"). split; [now left|cbn; tauto].
        -- reflexivity.
        -- left. repeat split. no_entry.
        -- no_entry.
        -- no_entry.
      * apply variant_only. left. reflexivity.
    + constructor.
    + intros f l [].
    + split; [constructor|easy].
  - intros vf [<-|[<-|[<-|[]]]]; reflexivity.
Qed.
Example C85_body_case m : source_hands integers nothing_else short_key (body m) lengths no_cspec [text_value].
Proof.
  constructor.
  - eexists. split; [apply asks_length_for|]. split; [|split; [|split; [|split; [|apply asks_length_for]]]].
    + constructor; [|constructor]. right. right. right. left. now left.
    + constructor; [|constructor]. vm_compute. intuition discriminate.
    + apply undecided. intros e a [<-|[]] H. inversion H as [? ? K|? ? K]; subst; vm_compute in K; intuition discriminate.
    + apply undecided. intros e a [<-|[]] H. inversion H as [|? ? ? K]; subst; vm_compute in K; intuition discriminate.
  - cbn [s_fields body]. eapply (more_hand _ _ _ _ _ _ _ _ _ None); [|reflexivity|apply this_line; now left|apply no_default|exact (value_entry m)| | |constructor].
    + reflexivity.
    + apply undecided. intros e a [<-|[]] (k & lit & [= <- _] & K & _). vm_compute in K. intuition discriminate.
    + intros k lit [[= <- <-]|[]] K. vm_compute in K. intuition discriminate.
Qed.
Example C85_message_case m : source_hands integers nothing_else short_key (message m) [] no_cspec (message_front ++ [(by_cmd, TEnum choice_spec choice_variants)]).
Proof.
  assert (AN : about_names "variable_name" (Property (txt "variable_name") (quoted (txt "length"))) lengths).
  { apply (listed_entry "variable_name" lengths); [discriminate|exact lengths_names|]. split; [reflexivity|vm_compute; intuition discriminate]. }
  assert (NO : ~ (exists a : attribute, In a [] /\ called (t_name a) ["default"%string])) by (intros (a & [] & _)).
  constructor.
  - exists []. split; [right; easy|]. repeat split; try (constructor; fail); try (apply undecided; easy).
    exists None. repeat split; [apply undecided; easy|easy|constructor].
  - unfold message, message_front. cbn [s_fields app].
    apply (more_hand _ _ _ _ _ _ _ [] [] None); [reflexivity|reflexivity|now right|exact NO|constructor|now apply undecided|easy|].
    set (f := mksource_field (txt "length") _ _ _).
    set (M := handed_meaning integers nothing_else short_key [] [txt "cmd"] f).
    eapply (more_hand _ _ _ _ _ _ _ _ [with_variables (map (fun x => (m_name M x, m_number M x)) lengths)] (Some lengths));
      [reflexivity|reflexivity|apply this_line; now left|apply no_default| | | |].
    { constructor; [|constructor]. apply says_variables; [now left|discriminate| |].
      - repeat constructor; vm_compute; intuition discriminate.
      - split; [reflexivity|vm_compute; intuition discriminate]. }
    { apply (decided_by _ []); [exact AN|easy]. }
    { intros k lit [[= <- <-]|[]] _. exists lengths. exact AN. }
    apply (more_hand _ _ _ _ _ _ _ [] [] None); [reflexivity|reflexivity|now right|exact NO|constructor|now apply undecided|easy|].
    eapply (more_hand _ _ _ _ _ _ _ _ [_] None); [|reflexivity|apply this_line; now left|apply no_default| | | |constructor].
    2:{ constructor; [|constructor]. apply says_branch; [left; reflexivity|]. apply denotes_expression with (s := txt "cmd"); [now apply literal_is|].
        apply starts_expression. vm_compute. discriminate. }
    + reflexivity.
    + apply undecided. intros e a [<-|[]] (k & lit & [= <- _] & K & _). vm_compute in K. intuition discriminate.
    + intros k lit [[= <- <-]|[]] K. vm_compute in K. intuition discriminate.
Qed.
Example C85_case m : exists d0 d1,
  handing_decoder integers nothing_else short_key (message m) = Some d0 /\ asking_decoder integers nothing_else short_key (choice m) = Some d1 /\
  struct_compiles d0 [] = true /\ enum_decoder_compiles sample_patterns d1 [] = true /\
  run_struct dec d0 no_cattr (hex [1; 2] ++ txt "abcdef") 0
    = Ok (VList [vi 1; vi 2; VList [VBytes (txt "ab")]; VVariant 0 [VBytes (txt "cd")]]) 6 /\
  run_enum_decoder sample_patterns d1 (container_with no_cspec [(short_key (txt "length"), 3)]) no_fattr (hex [1] ++ txt "abcdef") 0
    = Ok (VVariant 0 [VBytes (txt "abc")]) 4.
Proof.
  destruct (C85_nested sample_patterns integers nothing_else short_key (message m) (choice m) (firstn 3 (s_fields (message m))) (nth 3 (s_fields (message m)) (value_field m))
    no_cspec message_front by_cmd lengths choice_spec choice_variants sample_reads (C85_message_case m) eq_refl eq_refl (C85_choice_case m))
    as (d0 & d1 & E0 & E1 & K0 & K1 & _ & X).
  - cbn. repeat constructor; cbn; intuition discriminate.
  - intros x Hx. cbn in Hx. repeat (destruct Hx as [<-|Hx]; [split; [cbn; intuition discriminate|eexists _, _; split; [reflexivity|cbv; intuition discriminate]]|]). destruct Hx.
  - now left.
  - repeat split.
  - exists d0, d1. split; [exact E0|]. split; [exact E1|]. split; [exact K0|]. split; [apply K1|].
    destruct (C85_decoder _ _ _ _ _ _ _ _ sample_reads (C85_choice_case m)) as (d1' & E1' & _ & D1). rewrite E1 in E1'. injection E1' as <-.
    split; [|rewrite D1; vm_compute; reflexivity].
    destruct (X (hex [1; 2] ++ txt "abcdef") 0 [vi 1; vi 2; VList [VBytes (txt "ab")]] 4) as [_ Y]; [vm_compute; reflexivity|].
    destruct (modifiers by_cmd (mkenv [vi 1; vi 2; VList [VBytes (txt "ab")]] [])) as [fa|] eqn:EM; [|vm_compute in EM; discriminate EM].
    rewrite (Y fa); [|apply modifiers_convey; [now left|exact EM]]. rewrite D1. vm_compute in EM. injection EM as <-. vm_compute. reflexivity.
Qed.

Print Assumptions C85_decoder.
Print Assumptions C85_nested.

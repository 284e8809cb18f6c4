(** C77: from the text of an enum to its bytes. *)
From Coq Require Import Ascii String.
From Verif Require Import Base BaseLemmas Ints SpecOps Reader Writer Sugar TextSpec Text AttrParse AttrSpec AttrLemmas JDefaultSpec EnumText GenExpr
  GenExprSpec GenExprLemmas PropsExpr PropsAttr PropsEnumText GenDecode GenSpec GenEncode GenEncodeSpec PropsGen PropsGenEncode
  EnumTextSpec Source SourceSpec SourceLemmas PropsSource EnumSource EnumSourceSpec EnumSourceLemmas Decode Encode Spec NetLemmas
  PropsContainers WireSpec Schema.
Close Scope string_scope.

(** The decoder derived for an enum compiles and decodes the type the text describes,
    whatever the data and wherever the enum is used. *)
Theorem C77_decoder : forall pm A others s e vs, reads_numbers pm -> enum_says pm A others s e vs ->
  exists d, derived_enum_decoder A others s = Some d /\ (forall vars, enum_decoder_compiles pm d vars = true) /\
    forall ca fa dt p, run_enum_decoder pm d ca fa dt p = dec (TEnum e vs) ca fa dt p.
Proof. exact decoder_same. Qed.
(** So does the encoder, if the expressions in the variant are such as it can do. *)
Theorem C77_encoder : forall pm A others s e vs i x ys, enum_says pm A others s e vs ->
  nth_error (g_variants s) i = Some x -> length ys = length (x_fields x) ->
  (forall y, In y (map s_name (x_fields x)) -> others y = None) -> fields_writable A others x ys ->
  exists w, derived_enum_encoder A others s ys = Some w /\ (forall vars, enum_encoder_compiles pm w vars = true) /\
    forall ca fa b, run_enum_encoder pm w ca fa i ys b = enc (TEnum e vs) ca fa (VVariant i ys) b.
Proof. exact encoder_same. Qed.
(** What the one writes for a value is what the text says, and the other reads it back. *)
Theorem C77_round_trip : forall pm A others s e vs i x ys w rest, let t := TEnum e vs in
  reads_numbers pm -> enum_says pm A others s e vs ->
  nth_error (g_variants s) i = Some x -> length ys = length (x_fields x) ->
  (forall y, In y (map s_name (x_fields x)) -> others y = None) -> fields_writable A others x ys ->
  well_formed t -> wire t no_cattr no_fattr (VVariant i ys) = Some w -> fits t no_cattr no_fattr (VVariant i ys) rest = true ->
  allocatable (w ++ rest) ->
  exists d c, derived_enum_decoder A others s = Some d /\ derived_enum_encoder A others s ys = Some c /\
    enum_decoder_compiles pm d [] = true /\ enum_encoder_compiles pm c [] = true /\
    (exists n pos, run_enum_encoder pm c no_cattr no_fattr i ys buf_new = Ok n (mkbuf w pos)) /\
    run_enum_decoder pm d no_cattr no_fattr (w ++ rest) 0 = Ok (VVariant i ys) (size w).
Proof.
  intros pm A others s e vs i x ys w rest t R S HX HL HO HW WF WI FI AL.
  destruct (C77_decoder pm A others s e vs R S) as (d & D1 & D2 & D3).
  destruct (C77_encoder pm A others s e vs i x ys S HX HL HO HW) as (c & E1 & E2 & E3).
  destruct (C30_round_trip t (VVariant i ys) w rest WF WI FI AL) as [He Hd].
  exists d, c. split; [exact D1|]. split; [exact E1|]. split; [apply D2|]. split; [apply E2|]. split.
  - rewrite E3. fold t. unfold encode, encode_into in He. destruct (enc t no_cattr no_fattr (VVariant i ys) buf_new) as [n b| | |]; try discriminate.
    injection He as He. exists n, (b_pos b). destruct b. cbn in *. now subst.
  - rewrite D3. exact Hd.
Qed.

(** [#[jbytes(byteorder = "LE", u16)] enum Shape { Dot, #[jbytes(branch_value = "7")] Text {
    len: u8, #[jbytes(length = "len - 1", offset = "len - 2")] body: Vec<u8> },
    Many(u8, #[jbytes(count = "v0 % 4")] Vec<u16>) }] *)
Definition shape (m : meaning) : source_enum :=
  mksource_enum [jbytes_line [Property (txt "byteorder") (quoted (txt "LE")); Tag (txt "u16")]]
    [mksource_variant (txt "dot") [] None m true [];
     mksource_variant (txt "text") [jbytes_line [Property (txt "branch_value") (quoted (txt "7"))]] None m true
       [mksource_field (txt "len") [] m (TInt U8);
        mksource_field (txt "body") [jbytes_line [Property (txt "length") (quoted (txt "len - 1")); Property (txt "offset") (quoted (txt "len - 2"))]] m TBytes];
     mksource_variant (txt "many") [] None m false
       [mksource_field (txt "v0") [] m (TInt U8);
        mksource_field (txt "v1") [jbytes_line [Property (txt "count") (quoted (txt "v0 % 4"))]] m (TVec (TInt U16))]].
Definition shape_spec : espec := mkespec (mkcspec (Some Le) (Some 2)) ByTag false.
Definition shape_variants (m : meaning) : list (vspec * list (fspec * ty)) :=
  let number names := decoder_number integers nothing_else var_code (map txt names) in
  [(mkvspec true plain (txt "dot") None false None None None None, []);
   (mkvspec true (in_use plain) (txt "text") None false None (Some 7) None None,
    [(plain, TInt U8); (at_offset (number ["len"]%string (txt "len - 2")) (at_length (number ["len"]%string (txt "len - 1")) plain), TBytes)]);
   (mkvspec false plain (txt "many") None false None None None None,
    [(plain, TInt U8); (at_count (number ["v0"]%string (txt "v0 % 4")) plain, TVec (TInt U16))])].

Lemma literal_is s : forallb (fun c => negb (Byte.eqb c (byte_of 34)) && negb (Byte.eqb c (byte_of 92))) s = true -> string_literal (quoted s) s.
Proof.
  intros H. rewrite forallb_forall in H. split.
  - f_equal. induction s as [|c s IH]; [reflexivity|]. cbn [escaped]. pose proof (H c (or_introl eq_refl)) as Hc.
    apply andb_true_iff in Hc as [Hc _]. apply negb_true_iff in Hc. rewrite Hc. f_equal. apply IH. intros x Hx. apply H. now right.
  - intros Hi. apply H in Hi. apply andb_true_iff in Hi as [_ Hi]. vm_compute in Hi. discriminate.
Qed.
Lemma literal_only s s' : no_quotes s -> string_literal (quoted s) s' -> s' = s.
Proof.
  intros H [E _]. unfold quoted in E. apply app_inv_head in E. apply app_inv_tail in E. subst s.
  induction s' as [|c r IH]; [reflexivity|]. cbn [escaped] in *. destruct (Byte.eqb c (byte_of 34)) eqn:X.
  - apply Byte.byte_dec_bl in X. subst c. elim H. right. now left.
  - f_equal. apply IH. intros Hi. apply H. now right.
Qed.
Lemma starts_expression c r : 97 <= Byte.to_N c -> expression (c :: r).
Proof. intros H. split; [lia|]. intros ->. revert H. vm_compute. congruence. Qed.
Lemma no_default l : ~ (exists a, In a [jbytes_line l] /\ called (t_name a) ["default"%string]).
Proof. intros (a & [<-|[]] & H). vm_compute in H. intuition discriminate. Qed.
Ltac quiet := constructor; cbn [v_default v_disc v_value v_range v_bits v_name v_bytes d_attrs d_disc d_name variant_of x_lines x_name x_disc];
  [left; split; [reflexivity|intros a []]|reflexivity|intros ? []|intros ? ? []|split; [discriminate|intros (? & [] & _)]|reflexivity|left; repeat split; no_entry|no_entry|no_entry].
Lemma shape_says m : enum_says sample_patterns integers nothing_else (shape m) shape_spec (shape_variants m).
Proof.
  constructor.
  - eexists. split; [apply this_line; now left|]. split; [|split; [|split; [|split; [|split; [|split]]]]].
    + constructor; [left; exists Le; apply order_little; left; reflexivity|]. constructor; [|constructor].
      right. left. exists 2. apply (width_type "u16"). cbn. tauto.
    + constructor; [vm_compute; intuition discriminate|]. constructor; [exact Logic.I|constructor].
    + apply (decided_by about_order [] _ [Tag (txt "u16")]); [apply order_little; left; reflexivity|]. intros e a [<-|[]] H. inversion H.
    + apply (decided_by about_width [_] _ []); [apply (width_type "u16"); cbn; tauto|easy].
    + split; [discriminate|]. intros [H|[H|[]]]; vm_compute in H; discriminate H.
    + apply ann_tag; [intros [H|[H|[]]]; vm_compute in H; discriminate H..|]. apply undecided. intros e a H X. destruct X as [k lit n K _].
      destruct H as [[= <- <-]|[H|[]]]; [|discriminate H]. vm_compute in K. intuition discriminate.
    + intros [[H|[H|[]]] _]; vm_compute in H; discriminate H.
  - discriminate.
  - constructor; [|constructor; [|constructor; [|constructor]]]; constructor; try reflexivity; cbn [fst snd shape_variants].
    + exists [], []. split; [quiet|]. split; [constructor|reflexivity].
    + constructor.
    + intros f l [].
    + split; [constructor|easy].
    + exists [Property (txt "branch_value") (quoted (txt "7"))], [in_use]. split; [|split; [constructor; [|constructor]|reflexivity]].
      * assert (LT : literal_text (quoted (txt "7")) (txt "7")) by (left; split; [reflexivity|vm_compute; intuition discriminate]).
        constructor; cbn [v_default v_disc v_value v_range v_bits v_name v_bytes d_attrs d_disc d_name variant_of x_lines x_name x_disc].
        -- right. exists [], []. split; [intros a []|reflexivity].
        -- reflexivity.
        -- intros e [<-|[]]. cbn. tauto.
        -- intros k lit [[= <- <-]|[]] _. exists (txt "7"). exact LT.
        -- split; [discriminate|]. intros (i & [E|[]] & _). discriminate E.
        -- reflexivity.
        -- right. exists (txt "7"). split.
           ++ apply (decided_by _ [] _ []); [|intros ? ? []]. eexists _, _. split; [reflexivity|]. split; [left; reflexivity|exact LT].
           ++ left. exists 7. split; [left; constructor; [left; left; split; [|reflexivity]|]; lia|]. split; [lia|]. split; reflexivity.
        -- no_entry.
        -- no_entry.
      * apply variant_only. left. reflexivity.
    + apply (more_says _ _ _ _ _ [] []); [reflexivity|reflexivity|now right| |constructor|easy|].
      { intros (a & [] & _). }
      eapply (more_says _ _ _ _ _ _ [_; _]); [cbn [fold_left]; reflexivity|reflexivity|apply this_line; now left|apply no_default| | |constructor].
      * constructor; [|constructor; [|constructor]].
        -- apply says_length; [left; reflexivity|]. apply denotes_expression with (s := txt "len - 1"); [now apply literal_is|]. apply starts_expression. vm_compute. discriminate.
        -- apply says_offset; [left; reflexivity|]. apply denotes_expression with (s := txt "len - 2"); [now apply literal_is|]. apply starts_expression. vm_compute. discriminate.
      * intros k lit [[= <- <-]|[[= <- <-]|[]]]; vm_compute; intuition discriminate.
    + intros f l [<-|[<-|[]]] Hl; cbn [s_lines] in Hl; first [apply no_line in Hl|apply one_line in Hl]; subst l;
        repeat (constructor; [vm_compute; intuition discriminate|]); constructor.
    + split; [cbn; repeat constructor; cbn; intuition discriminate|].
      intros f [<-|[<-|[]]]; (split; [split; [cbn; intuition discriminate|eexists _, _; split; [reflexivity|cbv; intuition discriminate]]|cbn; intuition discriminate]).
    + exists [], []. split; [quiet|]. split; [constructor|reflexivity].
    + apply (more_says _ _ _ _ _ [] []); [reflexivity|reflexivity|now right| |constructor|easy|].
      { intros (a & [] & _). }
      eapply (more_says _ _ _ _ _ _ [_]); [cbn [fold_left]; reflexivity|reflexivity|apply this_line; now left|apply no_default| | |constructor].
      * constructor; [|constructor]. apply says_count; [left; reflexivity|]. apply denotes_expression with (s := txt "v0 % 4"); [now apply literal_is|].
        apply starts_expression. vm_compute. discriminate.
      * intros k lit [[= <- <-]|[]]; vm_compute; intuition discriminate.
    + intros f l [<-|[<-|[]]] Hl; cbn [s_lines] in Hl; first [apply no_line in Hl|apply one_line in Hl]; subst l;
        repeat (constructor; [vm_compute; intuition discriminate|]); constructor.
    + split; [cbn; lia|]. intros [|[|[|i]]] f Hf; cbn in Hf; try discriminate; injection Hf as <-; reflexivity.
  - intros vf [<-|[<-|[<-|[]]]]; reflexivity.
Qed.
Ltac field_name := split; [split; [left; cbv; split; discriminate|]|discriminate];
  repeat (constructor; [first [left; left; cbv; split; discriminate|right; cbv; split; discriminate]|]); constructor.
Lemma len_name : a_name (txt "len"). Proof. field_name. Qed.
Lemma v0_name : a_name (txt "v0"). Proof. field_name. Qed.
Lemma one_digit c : digit c -> decimal_text [c] (Byte.to_N c - 48).
Proof. intros H. split; [discriminate|]. split; [repeat constructor; apply H|]. split; [unfold decimal_value; cbn [fold_left]; lia|]. cbn [hd]. now intros ->. Qed.
Lemma difference x c k : a_name x -> digit c -> k = Byte.to_N c - 48 ->
  reads_as Disjunction (x ++ [" "; "-"; " "; c]%byte) (EOp Minus (EName x) (ENum k)).
Proof.
  intros N D ->. replace (x ++ [" "; "-"; " "; c]%byte) with ((x ++ [" "%byte]) ++ list_byte_of_string "-" ++ [" "%byte; c]) by (rewrite <- app_assoc; reflexivity).
  apply (whole Sum). apply ra_operation with (left := Sum) (right := Product); [constructor| |].
  - apply ra_after. now apply ra_sum, ra_product, ra_atom, ra_name.
  - apply (ra_before Product [c]). apply ra_product, ra_atom, ra_number. now apply one_digit.
Qed.
Lemma remainder x c k : a_name x -> digit c -> k = Byte.to_N c - 48 ->
  reads_as Disjunction (x ++ [" "; "%"; " "; c]%byte) (EOp Remainder (EName x) (ENum k)).
Proof.
  intros N D ->. replace (x ++ [" "; "%"; " "; c]%byte) with ((x ++ [" "%byte]) ++ list_byte_of_string "%" ++ [" "%byte; c]) by (rewrite <- app_assoc; reflexivity).
  apply (whole Product). apply ra_operation with (left := Product) (right := Cast); [constructor| |].
  - apply ra_after. now apply ra_product, ra_atom, ra_name.
  - apply (ra_before Cast [c]). apply ra_atom, ra_number. now apply one_digit.
Qed.
Lemma name_leads x rest names : a_name x -> In x names -> In "-"%byte (list_byte_of_string "+-*/%&|^<>") -> name_first names (x ++ " "%byte :: "-"%byte :: rest).
Proof.
  intros N I J. exists (x ++ [" "%byte]), x, ("-"%byte :: rest). split; [now rewrite <- app_assoc|].
  split; [now apply ra_after, ra_name|]. split; [exact I|]. right. eauto.
Qed.
(** [Text { len: 4, body: b"ABC" }]: the tag, the length, two bytes of padding, the body. *)
Definition text_values : list val := [VInt 4; VBytes ["A"; "B"; "C"]%byte].
Lemma text_writable m x : nth_error (g_variants (shape m)) 1 = Some x -> fields_writable integers nothing_else x text_values.
Proof.
  intros [= <-] i f l Hi Hl.
  assert (D1 : digit "1") by (split; vm_compute; discriminate). assert (D2 : digit "2") by (split; vm_compute; discriminate).
  destruct i as [|[|i]]; cbn [x_fields nth_error] in Hi; try (destruct i; discriminate); injection Hi as <-; cbn [s_lines] in Hl;
    first [apply no_line in Hl | apply one_line in Hl]; subst l; [constructor|].
  constructor; [|constructor; [|constructor]]; intros s H; (apply literal_only in H; [|vm_compute; intuition discriminate]); subst s;
    (split; [|intros K; vm_compute in K; intuition discriminate]); intros _ _.
  - exists (EOp Minus (EName (txt "len")) (ENum 1)), (VInt 3), 3%Z.
    split; [apply (difference (txt "len") "1" 1 len_name D1); reflexivity|]. split; [cbn; tauto|]. split; [reflexivity|]. split; [reflexivity|].
    split; [|discriminate]. intros _. apply (name_leads (txt "len") (txt " 1")); [exact len_name|now left|vm_compute; tauto].
  - exists (EOp Minus (EName (txt "len")) (ENum 2)), (VInt 2), 2%Z.
    split; [apply (difference (txt "len") "2" 2 len_name D2); reflexivity|]. split; [cbn; tauto|]. split; [reflexivity|]. split; [reflexivity|].
    split; [|discriminate]. intros _. apply (name_leads (txt "len") (txt " 2")); [exact len_name|now left|vm_compute; tauto].
Qed.
Example C77_text : forall m, exists d c,
  derived_enum_decoder integers nothing_else (shape m) = Some d /\ derived_enum_encoder integers nothing_else (shape m) text_values = Some c /\
  enum_decoder_compiles sample_patterns d [] = true /\ enum_encoder_compiles sample_patterns c [] = true /\
  let w := ["000"; "007"; "004"; "000"; "000"; "A"; "B"; "C"]%byte in
  (exists n pos, run_enum_encoder sample_patterns c no_cattr no_fattr 1 text_values buf_new = Ok n (mkbuf w pos)) /\
  run_enum_decoder sample_patterns d no_cattr no_fattr (w ++ ["255"%byte]) 0 = Ok (VVariant 1 text_values) 8.
Proof.
  intros m. eapply (C77_round_trip sample_patterns integers nothing_else (shape m) shape_spec (shape_variants m) 1); try reflexivity.
  - exact sample_reads.
  - exact (shape_says m).
  - apply (text_writable m). reflexivity.
  - unfold shape_variants, shape_spec. well.
Qed.
(** [Many(5, vec![0x102])]: the tag, which is the next number, the count and one number. *)
Definition many_values : list val := [VInt 5; VList [VInt 0x102]].
Lemma many_writable m x : nth_error (g_variants (shape m)) 2 = Some x -> fields_writable integers nothing_else x many_values.
Proof.
  intros [= <-] i f l Hi Hl. assert (D4 : digit "4") by (split; vm_compute; discriminate).
  destruct i as [|[|i]]; cbn [x_fields nth_error] in Hi; try (destruct i; discriminate); injection Hi as <-; cbn [s_lines] in Hl;
    first [apply no_line in Hl | apply one_line in Hl]; subst l; [constructor|].
  constructor; [|constructor]. intros s H. apply literal_only in H; [|vm_compute; intuition discriminate]. subst s.
  split; [|intros K; vm_compute in K; intuition discriminate]. intros _ _.
  exists (EOp Remainder (EName (txt "v0")) (ENum 4)), (VInt 1), 1%Z.
  split; [apply (remainder (txt "v0") "4" 4 v0_name D4); reflexivity|]. split; [cbn; tauto|]. split; [reflexivity|]. split; [reflexivity|].
  split; [intros [K|K]; [discriminate K|vm_compute in K; intuition discriminate]|]. intros _ _ x _. discriminate.
Qed.
Example C77_many : forall m, exists d c,
  derived_enum_decoder integers nothing_else (shape m) = Some d /\ derived_enum_encoder integers nothing_else (shape m) many_values = Some c /\
  enum_decoder_compiles sample_patterns d [] = true /\ enum_encoder_compiles sample_patterns c [] = true /\
  let w := ["000"; "008"; "005"; "002"; "001"]%byte in
  (exists n pos, run_enum_encoder sample_patterns c no_cattr no_fattr 2 many_values buf_new = Ok n (mkbuf w pos)) /\
  run_enum_decoder sample_patterns d no_cattr no_fattr (w ++ ["255"%byte]) 0 = Ok (VVariant 2 many_values) 5.
Proof.
  intros m. eapply (C77_round_trip sample_patterns integers nothing_else (shape m) shape_spec (shape_variants m) 2); try reflexivity.
  - exact sample_reads.
  - exact (shape_says m).
  - apply (many_writable m). reflexivity.
  - unfold shape_variants, shape_spec. well.
Qed.

(** [#[jbytes(branch_starts_with)] enum Method { #[jbytes(branch_value = b"GET ")] Get,
    Put(u8), #[jbytes(branch_default)] Other { rest: u16 } }]: [Put] goes by its name. *)
Definition method (m : meaning) : source_enum :=
  mksource_enum [jbytes_line [Tag (txt "branch_starts_with")]]
    [mksource_variant (txt "get") [jbytes_line [Property (txt "branch_value") ("b"%byte :: quoted (txt "GET "))]] None m true [];
     mksource_variant (txt "put") [] None m false [mksource_field (txt "v0") [] m (TInt U8)];
     mksource_variant (txt "other") [jbytes_line [Tag (txt "branch_default")]] None m true [mksource_field (txt "rest") [] m (TInt U16)]].
Definition method_spec : espec := mkespec no_cspec ByPrefix false.
Definition method_variants : list (vspec * list (fspec * ty)) :=
  [(mkvspec true (in_use plain) (txt "get") None false None None (Some (txt "GET ")) None, []);
   (mkvspec false plain (txt "put") None false None None None None, [(plain, TInt U8)]);
   (mkvspec true (in_use plain) (txt "other") None true None None None None, [(plain, TInt U16)])].
Lemma method_says m : enum_says sample_patterns integers nothing_else (method m) method_spec method_variants.
Proof.
  constructor.
  - eexists. split; [apply this_line; now left|]. split; [|split; [|split; [|split; [|split; [|split]]]]].
    + constructor; [|constructor]. right. right. right. right. eexists. split; [reflexivity|cbn; tauto].
    + constructor; [exact Logic.I|constructor].
    + apply undecided. intros e a [<-|[]] H. inversion H.
    + apply undecided. intros e a [<-|[]] H. inversion H as [i n K E|]. cbn [In] in K.
      repeat (destruct K as [[= <- <-]|K]; [vm_compute in E; discriminate E|]). destruct K.
    + split; [discriminate|]. intros [H|[]]; vm_compute in H; discriminate H.
    + apply ann_prefix; [now left|]. intros [H|[]]; vm_compute in H; discriminate H.
    + intros [_ [H|[]]]; vm_compute in H; discriminate H.
  - discriminate.
  - assert (LT : literal_text ("b"%byte :: quoted (txt "GET ")) ("b"%byte :: quoted (txt "GET "))).
    { right. split; [reflexivity|]. split.
      - intros (l & r & E). assert (H : In (byte_of 92) ("b"%byte :: quoted (txt "GET "))) by (rewrite E; apply in_app_iff; right; now left).
        vm_compute in H. intuition discriminate.
      - intros (r & E). vm_compute in E. discriminate E. }
    assert (NL : forall before f r m0 t more, s_lines f = [] -> s_meaning f = m0 -> s_type f = t -> field_says integers nothing_else (before ++ [s_name f]) r more ->
               field_says integers nothing_else before (f :: r) ((plain, t) :: more)).
    { intros before f r m0 t more E _ <- H. apply (more_says _ _ _ _ _ [] []); auto; rewrite ?E; [now right|intros (a & [] & _)]. }
    constructor; [|constructor; [|constructor; [|constructor]]]; constructor; try reflexivity; cbn [fst snd].
    + exists [Property (txt "branch_value") ("b"%byte :: quoted (txt "GET "))], [in_use]. split; [|split; [constructor; [|constructor]|reflexivity]].
      * constructor; cbn [v_default v_disc v_value v_range v_bits v_name v_bytes d_attrs d_disc d_name variant_of x_lines x_name x_disc].
        -- right. exists [], []. split; [intros a []|reflexivity].
        -- reflexivity.
        -- intros e [<-|[]]. cbn. tauto.
        -- intros k lit [[= <- <-]|[]] _. eexists. exact LT.
        -- split; [discriminate|]. intros (i & [E|[]] & _). discriminate E.
        -- reflexivity.
        -- right. exists ("b"%byte :: quoted (txt "GET ")). split.
           ++ apply (decided_by _ [] _ []); [|intros ? ? []]. eexists _, _. split; [reflexivity|]. split; [left; reflexivity|exact LT].
           ++ right. split; [|split; [|split; reflexivity]].
              ** exists (txt "GET "). split; [reflexivity|]. split; [vm_compute; intuition discriminate|].
                 intros t E. assert (H : In (byte_of 92) (txt "GET ")) by (rewrite E; apply in_app_iff; right; now left). vm_compute in H. intuition discriminate.
              ** intros (a & t & E). assert (H : In "."%byte ("b"%byte :: quoted (txt "GET "))) by (rewrite E; apply in_app_iff; right; now left). vm_compute in H. intuition discriminate.
        -- no_entry.
        -- no_entry.
      * apply variant_only. left. reflexivity.
    + constructor.
    + intros f l [].
    + split; [constructor|easy].
    + exists [], []. split; [quiet|]. split; [constructor|reflexivity].
    + apply (NL _ _ _ m); try reflexivity. constructor.
    + intros f l [<-|[]] Hl. apply no_line in Hl. subst l. constructor.
    + split; [cbn; lia|]. intros [|[|i]] f Hf; cbn in Hf; try discriminate; injection Hf as <-; reflexivity.
    + exists [Tag (txt "branch_default")], [in_use]. split; [|split; [constructor; [|constructor]|reflexivity]].
      * constructor; cbn [v_default v_disc v_value v_range v_bits v_name v_bytes d_attrs d_disc d_name variant_of x_lines x_name x_disc].
        -- right. exists [], []. split; [intros a []|reflexivity].
        -- reflexivity.
        -- intros e [<-|[]]. cbn. tauto.
        -- intros k lit [E|[]]. discriminate E.
        -- split; [|reflexivity]. intros _. exists (txt "branch_default"). split; [now left|cbn; tauto].
        -- reflexivity.
        -- left. repeat split. no_entry.
        -- no_entry.
        -- no_entry.
      * apply variant_only. left. reflexivity.
    + apply (NL _ _ _ m); try reflexivity. constructor.
    + intros f l [<-|[]] Hl. apply no_line in Hl. subst l. constructor.
    + split; [cbn; repeat constructor; cbn; intuition discriminate|].
      intros f [<-|[]]; (split; [split; [cbn; intuition discriminate|eexists _, _; split; [reflexivity|cbv; intuition discriminate]]|cbn; intuition discriminate]).
  - split; [intros vf [<-|[<-|[<-|[]]]]; reflexivity|].
    split; [reflexivity|]. split; [right; discriminate|]. split; [reflexivity|].
    intros i w k Hi. destruct i as [|[|i]]; cbn in Hi; [..|destruct i; discriminate]; injection Hi as <- <-; (split; [try discriminate|]).
    + intros _ [X|X]; now elim X.
    + reflexivity.
    + discriminate.
Qed.
Example C77_put : forall m, exists d c,
  derived_enum_decoder integers nothing_else (method m) = Some d /\ derived_enum_encoder integers nothing_else (method m) [VInt 9] = Some c /\
  enum_decoder_compiles sample_patterns d [] = true /\ enum_encoder_compiles sample_patterns c [] = true /\
  let w := ["p"; "u"; "t"; "009"]%byte in
  (exists n pos, run_enum_encoder sample_patterns c no_cattr no_fattr 1 [VInt 9] buf_new = Ok n (mkbuf w pos)) /\
  run_enum_decoder sample_patterns d no_cattr no_fattr (w ++ ["255"%byte]) 0 = Ok (VVariant 1 [VInt 9]) 4.
Proof.
  intros m. eapply (C77_round_trip sample_patterns integers nothing_else (method m) method_spec method_variants 1); try reflexivity.
  - exact sample_reads.
  - exact (method_says m).
  - intros i f l Hi Hl. destruct i as [|i]; cbn in Hi; [|destruct i; discriminate]. injection Hi as <-. apply no_line in Hl. subst l. constructor.
  - unfold method_variants, method_spec. well.
Qed.

(** What the decoder cannot do without: variants, and values that fit the announcement. *)
Theorem C77_no_variants : forall pm A others s d vars, g_variants s = [] -> derived_enum_decoder A others s = Some d ->
  enum_decoder_compiles pm d vars = false.
Proof.
  intros pm A others s d vars E H. unfold derived_enum_decoder, enum_decoder_with in H. destruct (container_other _); [discriminate|].
  rewrite E in H. cbn [read_arms] in H. destruct (container_attributes_of (g_container s)); [|discriminate]. cbn in H.
  injection H as <-. reflexivity.
Qed.
Example C77_no_variants_case : exists d, derived_enum_decoder integers nothing_else (mksource_enum [] []) = Some d.
Proof. eexists. reflexivity. Qed.
(** An enum of one variant [A] with this [branch_value], announced by this entry. *)
Definition announced_by (m : meaning) (announcement : list entry) (value : bytes) : source_enum :=
  mksource_enum [jbytes_line announcement] [mksource_variant (txt "a") [jbytes_line [Property (txt "branch_value") value]] None m true []].
Theorem C77_misfit_refuted : forall m pm, let byte_string := "b"%byte :: quoted (txt "A") in let number := quoted (txt "7") in
  let compiles announcement value := match derived_enum_decoder integers nothing_else (announced_by m announcement value) with
    | Some d => Some (enum_decoder_compiles pm d []) | None => None end in
  let encoder_compiles announcement value := match derived_enum_encoder integers nothing_else (announced_by m announcement value) [] with
    | Some w => Some (enum_encoder_compiles pm w []) | None => None end in
  compiles [] number = Some true /\ compiles [] byte_string = Some false /\
  compiles [Property (txt "branch_take_bytes") (txt "1")] byte_string = Some true /\
  compiles [Property (txt "branch_take_bytes") (txt "1")] number = Some false /\
  compiles [Tag (txt "branch_starts_with")] byte_string = Some true /\
  compiles [Tag (txt "branch_starts_with")] number = Some false /\
  encoder_compiles [Property (txt "branch_take_bytes") (txt "1")] byte_string = Some true /\
  encoder_compiles [Property (txt "branch_take_bytes") (txt "1")] number = Some false /\
  encoder_compiles [Tag (txt "branch_starts_with")] byte_string = Some true /\
  encoder_compiles [Tag (txt "branch_starts_with")] number = Some false.
Proof. intros m pm. repeat split. Qed.

Print Assumptions C77_decoder.
Print Assumptions C77_encoder.
Print Assumptions C77_round_trip.
Print Assumptions C77_no_variants.
Print Assumptions C77_misfit_refuted.

(** C89: containers with codecs of their own. *)
From Coq Require Import Ascii String.
From Verif Require Import Base BaseLemmas Ints SpecOps Reader Writer Sugar TextSpec Text AttrParse AttrSpec AttrLemmas EnumTextSpec EnumTextLemmas GenExpr GenExprSpec
  GenExprLemmas PropsExpr PropsAttr PropsEnumText GenDecode GenSpec PropsGen GenEncode GenEncodeSpec PropsGenEncode Source SourceSpec SourceLemmas PropsSource
  EnumSource EnumSourceSpec EnumSourceLemmas PropsEnumSource FieldSpec PropsModifiers
  Decode Encode Spec Collections Containers NetLemmas PropsContainers WireSpec Examples VarSource VarSourceSpec VarSourceLemmas PropsVarSource PropsVarEnum
  VarEncode VarEncodeSpec VarEncodeLemmas PropsVarEncode OwnCodec OwnCodecSpec Schema.
Close Scope string_scope.

(** ** What is read *)
Lemma last_text_app keys l e : last_text keys (l ++ [e]) =
  match e with
  | Property k lit => if existsb (bytes_eqb k) (map txt keys) then Some (parse_value_string lit) else last_text keys l
  | Tag _ => last_text keys l
  end.
Proof. unfold last_text. rewrite fold_left_app. reflexivity. Qed.
Lemma last_text_decided keys l o : decided (text_of keys) l o ->
  (forall k lit, In (Property k lit) l -> called k keys -> exists t, string_literal lit t) -> last_text keys l = o.
Proof.
  intros D. induction l as [|e l IH] using rev_ind; intros W.
  - inversion D as [|l' e r a X Y E]; [reflexivity|]. destruct l'; discriminate.
  - rewrite last_text_app.
    assert (WL : forall k lit, In (Property k lit) l -> called k keys -> exists t, string_literal lit t)
      by (intros k lit I; apply W, in_or_app; now left).
    assert (DL : (forall a, ~ text_of keys e a) -> decided (text_of keys) l o).
    { intros N. inversion D as [l' X E1 E2|l' e' r a X Y E1 E2].
      - apply undecided. intros e' a I. apply X. apply in_or_app. now left.
      - destruct r as [|e'' r] using rev_ind; [|clear IHr].
        + apply app_inj_tail in E1 as [-> ->]. elim (N a X).
        + rewrite app_comm_cons, app_assoc in E1. apply app_inj_tail in E1 as [<- ->]. apply decided_by; [exact X|].
          intros e3 a' I. apply Y. apply in_or_app. now left. }
    assert (DE : forall k lit t, e = Property k lit -> called k keys -> string_literal lit t -> o = Some t).
    { intros k lit t -> K L. inversion D as [l' X E1 E2|l' e' r a X Y E1 E2].
      - elim (X (Property k lit) t); [apply in_or_app; right; now left|]. exists k, lit. auto.
      - destruct r as [|e'' r] using rev_ind; [|clear IHr].
        + apply app_inj_tail in E1 as [_ ->]. destruct X as (k' & lit' & [= <- <-] & _ & L'). f_equal.
          rewrite <- (read_string _ _ L), <- (read_string _ _ L'). reflexivity.
        + rewrite app_comm_cons, app_assoc in E1. apply app_inj_tail in E1 as [_ ->].
          elim (Y (Property k lit) t); [apply in_or_app; right; now left|]. exists k, lit. auto. }
    destruct e as [i|k lit].
    + apply IH; [|exact WL]. apply DL. intros a (k & lit & [=] & _).
    + destruct (existsb _ _) eqn:E.
      * apply called_eqb in E. destruct (W k lit) as (t & L); [apply in_or_app; right; now left|exact E|].
        rewrite (read_string _ _ L). symmetry. now apply (DE k lit t).
      * apply IH; [|exact WL]. apply DL. intros a (k' & lit' & [= <- <-] & K & _). apply called_eqb in K. congruence.
Qed.
Lemma line_read lines l : first_line ["jbytes"; "repr"]%string lines l -> container_line lines = l.
Proof. intros H. apply first_found in H. unfold container_line. now destruct (find _ lines). Qed.
Lemma container_accepted lines l : container_with_functions lines l -> exists ca, container_attributes_of lines = Some ca.
Proof.
  intros ([(before & a & more & -> & T & <- & N)|[-> N]] & HE & _).
  - destruct (C63_container before a more N T HE) as (ca & E & _). now exists ca.
  - destruct (C63_no_line lines N) as (ca & E & _). now exists ca.
Qed.
Lemma decoder_named lines l o : container_with_functions lines l -> decodes_with l o -> own_decoder lines = o.
Proof.
  intros (L & _ & W) H. unfold own_decoder. rewrite (line_read _ _ L).
  assert (X : forall keys p, incl keys ["with_encode"; "encode_with"; "with_decode"; "decode_with"; "with"]%string -> decided (text_of keys) l p -> last_text keys l = p).
  { intros keys p HI HD. apply last_text_decided; [exact HD|]. intros k lit I K. apply (W k lit I). eapply called_sub; [exact K|exact HI]. }
  destruct H as [f D|m D D'|D D']; apply X in D; try (intros ?; cbn; tauto); try (apply X in D'; [|intros ?; cbn; tauto]); rewrite D; try reflexivity; now rewrite D'.
Qed.
Lemma encoder_named lines l o : container_with_functions lines l -> encodes_with l o -> own_encoder lines = o.
Proof.
  intros (L & _ & W) H. unfold own_encoder. rewrite (line_read _ _ L).
  assert (X : forall keys p, incl keys ["with_encode"; "encode_with"; "with_decode"; "decode_with"; "with"]%string -> decided (text_of keys) l p -> last_text keys l = p).
  { intros keys p HI HD. apply last_text_decided; [exact HD|]. intros k lit I K. apply (W k lit I). eapply called_sub; [exact K|exact HI]. }
  destruct H as [f D|m D D'|D D']; apply X in D; try (intros ?; cbn; tauto); try (apply X in D'; [|intros ?; cbn; tauto]); rewrite D; try reflexivity; now rewrite D'.
Qed.

(** ** Functions

    A container that names a function to decode it is decoded by that function, with the
    modifiers it has got, whatever else stands on it and on its fields: they need not even
    compile. *)
Theorem C89_decoder : forall functions derived lines l f x, container_with_functions lines l ->
  decodes_with l (Some f) -> functions f = Some x ->
  exists d, whole_decoder functions derived lines = Some d /\ forall ca fa data p, d ca fa data p = x ca fa data p.
Proof.
  intros functions derived lines l f x H D E. destruct (container_accepted _ _ H) as (ca & EC).
  exists x. split; [|reflexivity]. unfold whole_decoder. now rewrite EC, (decoder_named _ _ _ H D).
Qed.
(** A struct that names a function to encode it is encoded by that function, and what it
    returns is what that returns. *)
Theorem C89_encoder : forall functions derived lines l f x, container_with_functions lines l ->
  encodes_with l (Some f) -> functions f = Some x ->
  exists e, whole_encoder functions derived struct_steps lines = Some e /\ forall ca fa v b, e ca fa v b = x ca fa v b.
Proof.
  intros functions derived lines l f x H D E. destruct (container_accepted _ _ H) as (ca & EC).
  unfold whole_encoder, struct_steps. rewrite EC, (encoder_named _ _ _ H D). cbn [app steps_compile]. rewrite E.
  eexists. split; [reflexivity|]. intros ca' fa v b. cbn [run_steps]. rewrite E. unfold wbind.
  destruct (x ca' fa v b); reflexivity.
Qed.
(** Without such a function, what the fields or the variants give. *)
Theorem C89_derived : forall decoders encoders lines l derived derived', container_with_functions lines l ->
  (decodes_with l None -> whole_decoder decoders derived lines = derived) /\
  (encodes_with l None -> forall steps, In steps [struct_steps; enum_steps] ->
   match derived' with
   | Some x => exists e, whole_encoder encoders derived' steps lines = Some e /\ forall ca fa v b, e ca fa v b = x ca fa v b
   | None => whole_encoder encoders derived' steps lines = None
   end).
Proof.
  intros decoders encoders lines l derived derived' H. destruct (container_accepted _ _ H) as (ca & EC). split.
  - intros D. unfold whole_decoder. now rewrite EC, (decoder_named _ _ _ H D).
  - intros D steps HS. unfold whole_encoder. rewrite EC.
    assert (E : steps lines = [Start; Fields; Return]).
    { destruct HS as [<-|[<-|[]]]; unfold struct_steps, enum_steps; now rewrite (encoder_named _ _ _ H D). }
    rewrite E. cbn [steps_compile]. destruct derived' as [x|]; [|reflexivity].
    eexists. split; [reflexivity|]. intros ca' fa v b. cbn [run_steps]. unfold wbind. destruct (x ca' fa v b); reflexivity.
Qed.
(** So a struct with functions for both is to others a type with a hand-written codec, as
    in C51. *)
Theorem C89_type : forall decoders encoders derived derived' lines l f g x y doc, container_with_functions lines l ->
  decodes_with l (Some f) -> encodes_with l (Some g) -> decoders f = Some x -> encoders g = Some y ->
  exists d e, whole_decoder decoders derived lines = Some d /\ whole_encoder encoders derived' struct_steps lines = Some e /\
    (forall ca fa data p, d ca fa data p = dec (TUser (mkcodec x y) doc) ca fa data p) /\
    forall ca fa v b, e ca fa v b = enc (TUser (mkcodec x y) doc) ca fa v b.
Proof.
  intros decoders encoders derived derived' lines l f g x y doc H D E HX HY.
  destruct (C89_decoder decoders derived _ _ _ _ H D HX) as (d & Hd & Ed). destruct (C89_encoder encoders derived' _ _ _ _ H E HY) as (e & He & Ee).
  exists d, e. auto.
Qed.
(** Exactly then: a function that does not exist does not compile. *)
Theorem C89_missing : forall decoders encoders derived derived' lines l f, container_with_functions lines l ->
  (decodes_with l (Some f) -> decoders f = None -> whole_decoder decoders derived lines = None) /\
  (encodes_with l (Some f) -> encoders f = None -> whole_encoder encoders derived' struct_steps lines = None).
Proof.
  intros decoders encoders derived derived' lines l f H. destruct (container_accepted _ _ H) as (ca & EC). split; intros D E.
  - unfold whole_decoder. now rewrite EC, (decoder_named _ _ _ H D).
  - unfold whole_encoder, struct_steps. rewrite EC, (encoder_named _ _ _ H D). cbn [app steps_compile]. now rewrite E.
Qed.

(** ** One function

    A struct with a function for encoding alone is decoded as its fields say; if only
    decoding has one, it is encoded so. *)
Theorem C89_only_encoder : forall decoders A others key s l gets c fs, container_with_functions (s_container s) l ->
  decodes_with l None -> body_hands A others key s l gets c fs ->
  (forall f x, In f (s_fields s) -> ~ publishes f x) ->
  NoDup (map s_name (s_fields s)) -> (forall x, In x (map s_name (s_fields s)) -> own_name x) ->
  exists d, whole_decoder decoders (fields_decoder A others key s) (s_container s) = Some d /\
    forall ca fa data p, d ca fa data p = dec (TStruct true c fs) ca fa data p.
Proof.
  intros decoders A others key s l gets c fs H D [DO DW AF HF] NP ND ON.
  destruct (C89_derived decoders (fun _ => None) _ _ (fields_decoder A others key s) None H) as [X _]. rewrite (X D).
  destruct H as (L & CE & _). destruct (handing_fields_derived _ _ _ _ _ _ _ _ L CE DO DW AF HF) as (ca & gs & E & EC & EN & ET).
  unfold fields_decoder. rewrite E. set (o := if container_used (s_container s) then Some (container_spec ca) else None) in *.
  assert (K : forall vars, struct_compiles (mkdecl true o (Some gs)) vars = true /\ ~ position_taken gs).
  { intros vars. apply C65_compiles; [reflexivity|now rewrite ET| | |now left].
    - intros g Hg. apply own_not_reserved, ON. rewrite <- ET. now apply in_map.
    - intros _ g Hg. apply (no_publishers _ _ _ _ _ _ _ HF NP (n_spec g, n_type g)). rewrite <- EN.
      unfold nameless. apply in_map_iff. exists g. auto. }
  rewrite (proj1 (K [])). eexists. split; [reflexivity|]. intros ca' fa data p.
  cbv beta. rewrite (C65_struct (mkdecl true o (Some gs)) gs ca' fa data p eq_refl (proj1 (K _)) (proj2 (K []))).
  cbn [d_named]. unfold GenDecode.container_of. cbn [d_container]. now rewrite EC, EN.
Qed.
Theorem C89_only_decoder : forall encoders A others key s l gets c fs scope vs, let names := map s_name (s_fields s) in
  container_with_functions (s_container s) l -> encodes_with l None -> body_hands A others key s l gets c fs ->
  Forall free_variable gets -> in_scope gets [] [] others scope ->
  NoDup names -> (forall x, In x names -> own_name x) -> length vs = length names -> apart (combine names vs) scope ->
  source_asking_writable A scope gets s vs ->
  exists e, whole_encoder encoders (fields_encoder A others key s vs) struct_steps (s_container s) = Some e /\
    forall ca fa b, k_vars ca = [] -> e ca fa (VList vs) b = enc (TStruct true c fs) ca fa (VList vs) b.
Proof.
  intros encoders A others key s l gets c fs scope vs names H D [DO DW AF HF] FV SC ND ON LV AP WR. unfold names in *.
  destruct (C89_derived (fun _ => None) encoders _ _ None (fields_encoder A others key s vs) H) as [_ X].
  specialize (X D struct_steps (or_introl eq_refl)). destruct H as (L & CE & _).
  destruct (asking_fields_derived _ _ _ _ _ _ _ _ _ _ L CE DO DW AF HF FV SC ND (eq_trans LV (map_length _ _)) AP WR) as (o & gs & E & EC & EN & ET & EA).
  destruct (derived_writes [] vs o gs c fs _ EC EN ON LV ET EA) as [K Y].
  unfold fields_encoder in X |- *. rewrite E, (K []) in X |- *. destruct X as (e & He & Ee). exists e. split; [exact He|].
  intros ca fa b KV. rewrite Ee. now apply Y.
Qed.

(** ** Enums

    An enum that names a function to encode it does not compile, whatever the function:
    the generated function returns nothing. *)
Theorem C89_enum_refuted : forall functions derived lines l f, container_with_functions lines l -> encodes_with l (Some f) ->
  whole_encoder functions derived enum_steps lines = None.
Proof.
  intros functions derived lines l f H D. destruct (container_accepted _ _ H) as (ca & EC).
  unfold whole_encoder, enum_steps. rewrite EC, (encoder_named _ _ _ H D). cbn [steps_compile]. now destruct (functions f).
Qed.

(** ** Examples *)

(** [#[jbytes(decode_with = "f", encode_with = "g")]], [#[jbytes(with = "m")]] and
    [#[jbytes(with = "m", decode_with = "f")]]. *)
Definition both : list entry := [Property (txt "decode_with") (quoted (txt "f")); Property (txt "encode_with") (quoted (txt "g"))].
Definition module : list entry := [Property (txt "with") (quoted (txt "m"))].
Definition mixed : list entry := [Property (txt "with") (quoted (txt "m")); Property (txt "decode_with") (quoted (txt "f"))].
Ltac literal_text := (split; [reflexivity|vm_compute; intuition discriminate]).
Ltac not_about := let e := fresh in let a := fresh in let k := fresh in let lit := fresh in let K := fresh in
  intros e a I (k & lit & -> & K & _); repeat (destruct I as [[= <- <-]|I]; [vm_compute in K; intuition discriminate|]); destruct I.
Example C89_both_case : container_with_functions [jbytes_line both] both /\ decodes_with both (Some (txt "f")) /\ encodes_with both (Some (txt "g")).
Proof.
  split; [|split].
  - split; [apply this_line; now left|]. split.
    + repeat constructor; right; right; right; left; vm_compute; tauto.
    + intros k lit [[= <- <-]|[[= <- <-]|[]]] _; [exists (txt "f")|exists (txt "g")]; literal_text.
  - apply decodes_function. apply (decided_by _ []); [|not_about]. exists (txt "decode_with"), (quoted (txt "f")). split; [reflexivity|]. split; [vm_compute; tauto|literal_text].
  - apply encodes_function. apply (decided_by _ [_]); [|not_about]. exists (txt "encode_with"), (quoted (txt "g")). split; [reflexivity|]. split; [vm_compute; tauto|literal_text].
Qed.
Example C89_module_case : container_with_functions [jbytes_line module] module /\ decodes_with module (Some (txt "m::decode")) /\ encodes_with module (Some (txt "m::encode")).
Proof.
  split; [|split].
  - split; [apply this_line; now left|]. split.
    + repeat constructor; right; right; right; left; vm_compute; tauto.
    + intros k lit [[= <- <-]|[]] _; exists (txt "m"); literal_text.
  - apply (decodes_module _ (txt "m")); [apply undecided; not_about|].
    apply (decided_by _ []); [|not_about]. exists (txt "with"), (quoted (txt "m")). split; [reflexivity|]. split; [vm_compute; tauto|literal_text].
  - apply (encodes_module _ (txt "m")); [apply undecided; not_about|].
    apply (decided_by _ []); [|not_about]. exists (txt "with"), (quoted (txt "m")). split; [reflexivity|]. split; [vm_compute; tauto|literal_text].
Qed.
Example C89_mixed_case : container_with_functions [jbytes_line mixed] mixed /\ decodes_with mixed (Some (txt "f")) /\ encodes_with mixed (Some (txt "m::encode")).
Proof.
  split; [|split].
  - split; [apply this_line; now left|]. split.
    + repeat constructor; right; right; right; left; vm_compute; tauto.
    + intros k lit [[= <- <-]|[[= <- <-]|[]]] _; [exists (txt "m")|exists (txt "f")]; literal_text.
  - apply decodes_function. apply (decided_by _ [_]); [|not_about]. exists (txt "decode_with"), (quoted (txt "f")). split; [reflexivity|]. split; [vm_compute; tauto|literal_text].
  - apply (encodes_module _ (txt "m")); [apply undecided; not_about|].
    apply (decided_by _ []); [|not_about]. exists (txt "with"), (quoted (txt "m")). split; [reflexivity|]. split; [vm_compute; tauto|literal_text].
Qed.

(** [#[jbytes(encode_with = "g")] struct Half { a: u8, b: u16 }], and with [decode_with]. *)
Definition half (k f : string) (m : meaning) : source :=
  mksource [jbytes_line [Property (txt k) (quoted (txt f))]] [mksource_field (txt "a") [] m (TInt U8); mksource_field (txt "b") [] m (TInt U16)].
Definition half_fields : list (fspec * ty) := [(plain, TInt U8); (plain, TInt U16)].
Example C89_half_case m : forall k f, In (k, f) [("encode_with", "g"); ("decode_with", "f")]%string ->
  let l := [Property (txt k) (quoted (txt f))] in
  container_with_functions (s_container (half k f m)) l /\ body_hands integers nothing_else short_key (half k f m) l [] no_cspec half_fields.
Proof.
  intros k f HI l. split.
  - split; [apply this_line; now left|]. destruct HI as [[= <- <-]|[[= <- <-]|[]]]; (split; [repeat constructor; right; right; right; left; vm_compute; tauto|]);
      intros k lit [[= <- <-]|[]] _; [exists (txt "g")|exists (txt "f")]; literal_text.
  - constructor.
    + apply undecided. intros e a [<-|[]] H. destruct HI as [[= <- <-]|[[= <- <-]|[]]]; inversion H as [? ? K|? ? K]; subst; vm_compute in K; intuition discriminate.
    + apply undecided. intros e a [<-|[]] H. destruct HI as [[= <- <-]|[[= <- <-]|[]]]; inversion H as [|? ? ? K]; subst; vm_compute in K; intuition discriminate.
    + exists None. destruct HI as [[= <- <-]|[[= <- <-]|[]]]; (split; [apply undecided; intros e a [<-|[]] (k & lit & [= <- _] & K & _); vm_compute in K; intuition discriminate|]);
        (split; [intros k lit [[= <- <-]|[]] K; vm_compute in K; intuition discriminate|split; [reflexivity|constructor]]).
    + assert (NO : ~ (exists a : attribute, In a [] /\ called (t_name a) ["default"%string])) by (intros (a & [] & _)).
      unfold half, half_fields. cbn [s_fields].
      do 2 (apply (more_hand _ _ _ _ _ _ _ [] [] None); [reflexivity|reflexivity|now right|exact NO|constructor|now apply undecided|easy|]). constructor.
Qed.
Example C89_half_decoder m : exists d,
  whole_decoder (fun _ => None) (fields_decoder integers nothing_else short_key (half "encode_with" "g" m)) (s_container (half "encode_with" "g" m)) = Some d /\
  d no_cattr no_fattr (hex [1; 2; 3; 4]) 0 = Ok (VList [vi 1; vi 515]) 3.
Proof.
  destruct (C89_half_case m "encode_with" "g" (or_introl eq_refl)) as [H B].
  destruct (C89_only_encoder (fun _ => None) integers nothing_else short_key (half "encode_with" "g" m) _ [] no_cspec half_fields H) as (d & E & X).
  - apply decodes_derived; apply undecided; not_about.
  - exact B.
  - intros f x [<-|[<-|[]]] (l & names & L & D & I); apply no_line in L; subst l; apply decided_nil in D; discriminate.
  - cbn. repeat constructor; cbn; intuition discriminate.
  - intros x [<-|[<-|[]]]; (split; [cbn; intuition discriminate|eexists _, _; split; [reflexivity|cbv; intuition discriminate]]).
  - exists d. split; [exact E|]. rewrite X. vm_compute. reflexivity.
Qed.
Example C89_half_encoder m : let vs := [vi 1; vi 515] in exists e,
  whole_encoder (fun _ => None) (fields_encoder integers nothing_else short_key (half "decode_with" "f" m) vs) struct_steps (s_container (half "decode_with" "f" m)) = Some e /\
  e no_cattr no_fattr (VList vs) buf_new = enc (TStruct true no_cspec half_fields) no_cattr no_fattr (VList vs) buf_new.
Proof.
  intros vs. destruct (C89_half_case m "decode_with" "f" (or_intror (or_introl eq_refl))) as [H B].
  destruct (C89_only_decoder (fun _ => None) integers nothing_else short_key (half "decode_with" "f" m) _ [] no_cspec half_fields nothing_else vs H) as (e & E & X).
  - apply encodes_derived; apply undecided; not_about.
  - exact B.
  - constructor.
  - exact nothing_scope.
  - cbn. repeat constructor; cbn; intuition discriminate.
  - intros x [<-|[<-|[]]]; (split; [cbn; intuition discriminate|eexists _, _; split; [reflexivity|cbv; intuition discriminate]]).
  - reflexivity.
  - split; [reflexivity|]. split; [cbn; intuition discriminate|]. intros x [<-|[<-|[]]]; reflexivity.
  - intros i f l Hi Hl. destruct i as [|[|i]]; cbn [half s_fields nth_error] in Hi; try (destruct i; discriminate); injection Hi as <-; cbn [s_lines] in Hl;
      apply no_line in Hl; subst l; constructor.
  - exists e. split; [exact E|]. now apply X.
Qed.
(** A struct whose fields do not compile at all, and an enum, both with
    [#[jbytes(decode_with = "f", encode_with = "g")]]. *)
Example C89_functions_case : forall (x : cattr -> fattr -> rd val) (y : cattr -> fattr -> val -> wr N),
  let decoders f := if bytes_eqb f (txt "f") then Some x else None in
  let encoders f := if bytes_eqb f (txt "g") then Some y else None in
  whole_decoder decoders None [jbytes_line both] = Some x /\
  (exists e, whole_encoder encoders None struct_steps [jbytes_line both] = Some e /\ forall ca fa v b, e ca fa v b = y ca fa v b) /\
  whole_encoder encoders None enum_steps [jbytes_line both] = None.
Proof.
  intros x y decoders encoders. destruct C89_both_case as (H & D & E). split; [reflexivity|]. split.
  - now apply (C89_encoder encoders None _ _ (txt "g") y H E).
  - now apply (C89_enum_refuted encoders None _ _ (txt "g") H E).
Qed.

Print Assumptions C89_decoder.
Print Assumptions C89_encoder.
Print Assumptions C89_derived.
Print Assumptions C89_type.
Print Assumptions C89_missing.
Print Assumptions C89_only_encoder.
Print Assumptions C89_only_decoder.
Print Assumptions C89_enum_refuted.

(** C86: encoders of structs that hand on variables or ask for them. *)
From Coq Require Import Ascii String.
From Verif Require Import Base BaseLemmas Ints SpecOps Reader Writer Sugar TextSpec Text AttrParse AttrSpec AttrLemmas EnumTextSpec EnumTextLemmas GenExpr GenExprSpec
  GenExprLemmas PropsExpr PropsAttr GenDecode GenSpec PropsGen GenEncode GenEncodeSpec PropsGenEncode Source SourceSpec SourceLemmas PropsSource
  EnumSource EnumSourceSpec EnumSourceLemmas PropsEnumSource FieldSpec PropsModifiers
  Decode Encode Spec Collections Containers NetLemmas PropsContainers WireSpec Examples VarSource VarSourceSpec VarSourceLemmas PropsVarSource PropsVarEnum
  VarEncode VarEncodeSpec VarEncodeLemmas Schema.
Close Scope string_scope.

Lemma own_encodes x : own_name x -> ~ In x encoder_names /\ x <> list_byte_of_string "self" /\ exists c r, x = c :: r /\ ~ (48 <= Byte.to_N c <= 57).
Proof.
  intros [N F]. split; [|split; [|exact F]].
  - intros Hr. apply N. revert Hr. apply incl_map. intros y. cbn. tauto.
  - intros E. apply N. rewrite E. cbn. tauto.
Qed.
(** The same without a word about codecs. *)
Lemma asking_fields_handed A others key s gets vars c l scope vs ls : first_line ["jbytes"; "repr"]%string (s_container s) ls -> Forall container_entry ls ->
  decided about_order ls (c_order c) -> decided about_width ls (c_byte_count c) -> asks_for ls gets ->
  fields_hand A others key gets [] (s_fields s) l -> Forall free_variable gets ->
  (Forall a_name gets -> forall x, scope x = asked key gets vars others x) ->
  NoDup (map s_name (s_fields s)) -> length vs = length (s_fields s) ->
  apart (combine (map s_name (s_fields s)) vs) scope -> source_asking_writable A scope gets s vs ->
  exists o gs, asking_fields_encoder A others key s vs = Some (mkdecl true o (Some gs)) /\
    match o with Some c => c | None => no_cspec end = c /\ map n_name gs = map s_name (s_fields s) /\
    Forall2 (fun f g => snd f = snd g) (nameless gs) l /\
    (forall i f g, nth_error (nameless gs) i = Some f -> nth_error l i = Some g -> alike (mkenv (firstn i vs) vars) (fst f) (fst g)).
Proof.
  intros L CE DO DW (names & DN & W & EG & OV) HF FV SC ND LV AP WR. unfold asking_fields_encoder.
  destruct (container_parsed _ _ _ L CE DO DW) as (ca & -> & EC). rewrite (asked_read _ _ _ L DN W).
  pose proof (decided_names _ _ _ DN) as G. rewrite <- EG in *.
  rewrite (all_usable encoder_taken gets G).
  2:{ rewrite Forall_forall in FV |- *. intros x Hx I. destruct (FV x Hx) as [F1 F2]. cbn [map encoder_taken In] in I.
      destruct I as [I|[I|[I|[I|[I|[I|[I|[I|[I|[]]]]]]]]]]; first [apply F1; rewrite <- I; cbn; tauto|apply F2; rewrite <- I; cbn; tauto]. }
  cbn [negb].
  destruct (asking_written A others key gets vars scope vs (map s_name (s_fields s)) (SC G) ND ltac:(now rewrite map_length) AP [] (s_fields s) l HF eq_refl) as (gs & -> & EN & ET & EA).
  { intros i f l' Hi Hl. exact (WR i f l' Hi Hl). }
  eexists _, gs. split; [reflexivity|]. auto.
Qed.
Lemma asking_fields_derived A others key s gets c l scope vs ls : first_line ["jbytes"; "repr"]%string (s_container s) ls -> Forall container_entry ls ->
  decided about_order ls (c_order c) -> decided about_width ls (c_byte_count c) -> asks_for ls gets ->
  fields_hand A others key gets [] (s_fields s) l -> Forall free_variable gets ->
  in_scope gets [] [] others scope ->
  NoDup (map s_name (s_fields s)) -> length vs = length (s_fields s) ->
  apart (combine (map s_name (s_fields s)) vs) scope -> source_asking_writable A scope gets s vs ->
  exists o gs, asking_fields_encoder A others key s vs = Some (mkdecl true o (Some gs)) /\
    match o with Some c => c | None => no_cspec end = c /\ map n_name gs = map s_name (s_fields s) /\
    Forall2 (fun f g => snd f = snd g) (nameless gs) l /\
    (forall i f g, nth_error (nameless gs) i = Some f -> nth_error l i = Some g -> alike (mkenv (firstn i vs) []) (fst f) (fst g)).
Proof. intros L CE DO DW AF HF FV SC. apply (asking_fields_handed A others key s gets [] c l scope vs ls L CE DO DW AF HF FV). intros G. exact (zero_scope key gets others scope G SC). Qed.
(** What is derived writes the type. *)
Lemma derived_writes vars vs o gs c l names : match o with Some c => c | None => no_cspec end = c -> map n_name gs = names ->
  (forall x, In x names -> own_name x) -> length vs = length names ->
  Forall2 (fun f g => snd f = snd g) (nameless gs) l ->
  (forall i f g, nth_error (nameless gs) i = Some f -> nth_error l i = Some g -> alike (mkenv (firstn i vs) vars) (fst f) (fst g)) ->
  (forall taken, encoder_compiles (mkdecl true o (Some gs)) taken = true) /\
  forall ca fa b, k_vars ca = vars -> run_encoder enc (mkdecl true o (Some gs)) ca fa vs b = enc (TStruct true c l) ca fa (VList vs) b.
Proof.
  intros EC EN ON LV ET EA.
  assert (K : forall taken, encoder_compiles (mkdecl true o (Some gs)) taken = true).
  { intros taken. apply (C69_compiles (mkdecl true o (Some gs)) gs taken eq_refl). intros f Hf _. apply own_encodes, ON. rewrite <- EN. now apply in_map. }
  split; [exact K|]. intros ca fa b KV.
  assert (LG : length vs = length gs) by (rewrite LV, <- EN; apply map_length).
  rewrite (C69_struct (mkdecl true o (Some gs)) gs ca fa vs b eq_refl (K _) LG). cbn [d_named].
  unfold GenDecode.container_of. cbn [d_container]. rewrite EC. cbn [enc]. rewrite KV. apply alike_fields; [exact ET|exact EA].
Qed.
(** The encoder of a struct with variables compiles, and writes the type the text
    describes, with 0 for each variable it asks for: encoders hand on nothing. *)
Theorem C86_encoder : forall A others key s gets c l scope vs, let names := map s_name (s_fields s) in
  source_hands A others key s gets c l -> Forall free_variable gets -> in_scope gets [] [] others scope ->
  NoDup names -> (forall x, In x names -> own_name x) -> length vs = length names -> apart (combine names vs) scope ->
  source_asking_writable A scope gets s vs ->
  exists e, asking_encoder A others key s vs = Some e /\ (forall vars, encoder_compiles e vars = true) /\
    forall ca fa b, k_vars ca = [] -> run_encoder enc e ca fa vs b = enc (TStruct true c l) ca fa (VList vs) b.
Proof.
  intros A others key s gets c l scope vs names [(ls & L & CE & NC & DO & DW & AF) HF] FV SC ND ON LV AP WR. unfold names in *.
  destruct (asking_fields_derived _ _ _ _ _ _ _ _ _ _ L CE DO DW AF HF FV SC ND (eq_trans LV (map_length _ _)) AP WR) as (o & gs & E & EC & EN & ET & EA).
  eexists. split; [unfold asking_encoder; rewrite (no_codec_read _ _ L NC); exact E|].
  exact (derived_writes [] vs o gs c l _ EC EN ON LV ET EA).
Qed.
(** A hand-written encoder may hand on variables: what is derived uses those it asks for. *)
Theorem C86_handed : forall A others key s gets c l scope vs vars, let names := map s_name (s_fields s) in
  source_hands A others key s gets c l -> Forall free_variable gets -> handed_in gets key vars others scope ->
  NoDup names -> (forall x, In x names -> own_name x) -> length vs = length names -> apart (combine names vs) scope ->
  source_asking_writable A scope gets s vs ->
  exists e, asking_encoder A others key s vs = Some e /\ (forall taken, encoder_compiles e taken = true) /\
    forall ca fa b, k_vars ca = vars -> run_encoder enc e ca fa vs b = enc (TStruct true c l) ca fa (VList vs) b.
Proof.
  intros A others key s gets c l scope vs vars names [(ls & L & CE & NC & DO & DW & AF) HF] FV SC ND ON LV AP WR. unfold names in *.
  destruct (asking_fields_handed A others key s gets vars c l scope vs ls L CE DO DW AF HF FV) as (o & gs & E & EC & EN & ET & EA); auto.
  { intros G. now apply handed_scope. }
  { now rewrite LV, map_length. }
  eexists. split; [unfold asking_encoder; rewrite (no_codec_read _ _ L NC); exact E|].
  exact (derived_writes vars vs o gs c l _ EC EN ON LV ET EA).
Qed.

(** What the encoder writes the decoder reads back, each derived for the struct as it is
    written, with the variables that the decoder hands on ([wire]). [well_formed]: nothing
    but the length of a text depends on a variable. *)
Theorem C86_round_trip : forall A others key s gets c l scope vs w rest,
  let t := TStruct true c l in let names := map s_name (s_fields s) in
  source_hands A others key s gets c l -> Forall free_variable gets -> in_scope gets [] [] others scope ->
  s_container s = [] \/ (forall f x, In f (s_fields s) -> ~ publishes f x) ->
  NoDup names -> (forall x, In x names -> own_name x) -> length vs = length names -> apart (combine names vs) scope ->
  source_asking_writable A scope gets s vs ->
  well_formed t -> wire t no_cattr no_fattr (VList vs) = Some w -> fits t no_cattr no_fattr (VList vs) rest = true ->
  allocatable (w ++ rest) ->
  exists d e, handing_decoder A others key s = Some d /\ asking_encoder A others key s vs = Some e /\
    struct_compiles d [] = true /\ encoder_compiles e [] = true /\
    (exists n pos, run_encoder enc e no_cattr no_fattr vs buf_new = Ok n (mkbuf w pos)) /\
    run_struct dec d no_cattr (w ++ rest) 0 = Ok (VList vs) (size w).
Proof.
  intros A others key s gets c l scope vs w rest t names H FV SC HC ND ON LV AP WR WF WI FI AL.
  destruct (C86_encoder A others key s gets c l scope vs H FV SC ND ON LV AP WR) as (e & E & KE & X).
  destruct (handing_derived _ _ _ _ _ _ _ H) as (ca & fs & D & EC & EN & ET).
  set (o := if container_used (s_container s) then Some (container_spec ca) else None) in *.
  set (d := mkdecl true o (Some fs)) in *.
  assert (K : struct_compiles d [] = true /\ ~ position_taken fs).
  { apply C65_compiles; [reflexivity|now rewrite ET| | |now left].
    - intros g Hg. apply own_not_reserved, ON. unfold names. rewrite <- ET. now apply in_map.
    - intros NO g Hg. destruct HC as [HC|HC].
      + elim NO. cbn [d d_container]. unfold o. now rewrite HC.
      + apply (no_publishers _ _ _ _ _ _ _ (sh_fields _ _ _ _ _ _ _ H) HC (n_spec g, n_type g)). rewrite <- EN.
        unfold nameless. apply in_map_iff. exists g. auto. }
  exists d, e. split; [exact D|]. split; [exact E|]. split; [apply K|]. split; [apply KE|].
  destruct (C30_round_trip t (VList vs) w rest WF WI FI AL) as [He Hd]. split.
  - rewrite (X no_cattr no_fattr buf_new eq_refl). fold t.
    unfold encode, encode_into in He. destruct (enc t no_cattr no_fattr (VList vs) buf_new) as [n b| | |]; try discriminate.
    injection He as He. exists n, (b_pos b). destruct b. cbn in *. now subst.
  - rewrite (C65_struct d fs no_cattr no_fattr (w ++ rest) 0 eq_refl (proj1 K) (proj2 K)).
    change (d_named d) with true. change (GenDecode.container_of d) with (match o with Some c => c | None => no_cspec end). rewrite EN, EC. exact Hd.
Qed.

(** ** Examples *)

(** [struct Letter { #[jbytes(variable_name = "length")] length: u8, body: Body }] with the
    [Body] of C85, that asks for [length]. *)
Definition letter_source (m : meaning) : source :=
  mksource [] [mksource_field (txt "length") [jbytes_line [Property (txt "variable_name") (quoted (txt "length"))]] m (TInt U8);
               mksource_field (txt "body") [] m (TStruct true no_cspec [text_value])].
Definition letter_fields : list (fspec * ty) :=
  [(with_variables [(short_key (txt "length"), published_number integers nothing_else short_key [] [txt "length"] (txt "length"))] plain, TInt U8);
   (plain, TStruct true no_cspec [text_value])].
Definition zero_length (x : bytes) : option val := if bytes_eqb x (txt "length") then Some (VInt 0) else None.
Lemma zero_length_scope : in_scope lengths [] [] nothing_else zero_length.
Proof.
  intros x. split.
  - intros [<-|[]]. exists 0. split; [apply hands_nothing; intros f []|reflexivity].
  - intros N. unfold zero_length. destruct (bytes_eqb x (txt "length")) eqn:E; [|reflexivity]. apply bytes_eqb_eq in E. elim N. now left.
Qed.
Lemma nothing_scope : in_scope [] [] [] nothing_else nothing_else.
Proof. intros x. split; [intros []|reflexivity]. Qed.
Example C86_letter_case m : source_hands integers nothing_else short_key (letter_source m) [] no_cspec letter_fields.
Proof.
  assert (AN : about_names "variable_name" (Property (txt "variable_name") (quoted (txt "length"))) lengths).
  { apply (listed_entry "variable_name" lengths); [discriminate|exact lengths_names|]. split; [reflexivity|vm_compute; intuition discriminate]. }
  assert (NO : ~ (exists a : attribute, In a [] /\ called (t_name a) ["default"%string])) by (intros (a & [] & _)).
  constructor.
  - exists []. split; [right; easy|]. repeat split; try (constructor; fail); try (apply undecided; easy).
    exists None. repeat split; [apply undecided; easy|easy|constructor].
  - unfold letter_source, letter_fields. cbn [s_fields app].
    set (f := mksource_field (txt "length") _ _ _).
    set (M := handed_meaning integers nothing_else short_key [] [] f).
    eapply (more_hand _ _ _ _ _ _ _ _ [with_variables (map (fun x => (m_name M x, m_number M x)) lengths)] (Some lengths));
      [reflexivity|reflexivity|apply this_line; now left|apply no_default| | | |].
    { constructor; [|constructor]. apply says_variables; [now left|discriminate| |].
      - repeat constructor; vm_compute; intuition discriminate.
      - split; [reflexivity|vm_compute; intuition discriminate]. }
    { apply (decided_by _ []); [exact AN|easy]. }
    { intros k lit [[= <- <-]|[]] _. exists lengths. exact AN. }
    apply (more_hand _ _ _ _ _ _ _ [] [] None); [reflexivity|reflexivity|now right|exact NO|constructor|now apply undecided|easy|constructor].
Qed.
Lemma quoted_literal s s' : no_quotes s -> string_literal (quoted s) s' -> s' = s.
Proof.
  intros H [E _]. unfold quoted in E. apply app_inv_head in E. apply app_inv_tail in E. subst s.
  induction s' as [|c r IH]; [reflexivity|]. cbn [escaped] in *. destruct (Byte.eqb c (byte_of 34)) eqn:X.
  - apply Byte.byte_dec_bl in X. subst c. elim H. right. now left.
  - f_equal. apply IH. intros Hi. apply H. now right.
Qed.
(** [Body] meets the conditions of [C86_encoder]: [length = "length"] is in the list. *)
Example C86_body_case m text b : exists e,
  asking_encoder integers nothing_else short_key (body m) [VBytes text] = Some e /\ encoder_compiles e [] = true /\
  run_encoder enc e no_cattr no_fattr [VBytes text] b = enc (TStruct true no_cspec [text_value]) no_cattr no_fattr (VList [VBytes text]) b.
Proof.
  destruct (C86_encoder integers nothing_else short_key (body m) lengths no_cspec [text_value] zero_length [VBytes text] (C85_body_case m)) as (e & E & K & X).
  - constructor; [|constructor]. split; vm_compute; intuition discriminate.
  - exact zero_length_scope.
  - cbn. repeat constructor; cbn; intuition discriminate.
  - intros x [<-|[]]. split; [cbn; intuition discriminate|eexists _, _; split; [reflexivity|cbv; intuition discriminate]].
  - reflexivity.
  - split; [reflexivity|]. split; [cbn; intuition discriminate|]. intros x [<-|[]]. reflexivity.
  - intros i f l Hi Hl. destruct i as [|[|i]]; [|discriminate..]. injection Hi as <-. cbn [s_lines value_field] in Hl. apply one_line in Hl. subst l.
    constructor; [|constructor]. intros s Q.
    apply quoted_literal in Q; [|vm_compute; intuition discriminate]. subst s.
    split; [|intros K; vm_compute in K; intuition discriminate]. intros _ _. split; [|split].
    + exists 0%Z. exists (EName (txt "length")), (VInt 0). split; [|split; reflexivity]. apply (whole Atom), ra_name. exact (Forall_inv lengths_names).
    + intros _ _. eexists. split; [reflexivity|]. intros y Hy Hf. cbn in Hy, Hf. intuition congruence.
    + intros N. elim N. split; [now left|]. split; [discriminate|]. exists [], []. reflexivity.
  - exists e. split; [exact E|]. split; [apply K|]. now apply X.
Qed.

(** The same with a length handed on. *)
Definition length_of (n : N) (x : bytes) : option val := if bytes_eqb x (txt "length") then Some (VInt (Z.of_N n)) else None.
Lemma length_handed n : handed_in lengths short_key [(7%nat, 5); (short_key (txt "length"), n)] nothing_else (length_of n).
Proof.
  intros x. split.
  - intros [<-|[]]. exists n. split; [|reflexivity]. left. exists [(7%nat, 5)], []. split; [reflexivity|]. cbn. intros [H|[]]. vm_compute in H. discriminate.
  - intros N. unfold length_of. destruct (bytes_eqb x (txt "length")) eqn:E; [|reflexivity]. apply bytes_eqb_eq in E. elim N. now left.
Qed.
Example C86_handed_case m text n b : exists e,
  asking_encoder integers nothing_else short_key (body m) [VBytes text] = Some e /\ encoder_compiles e [] = true /\
  forall ca, k_vars ca = [(7%nat, 5); (short_key (txt "length"), n)] ->
  run_encoder enc e ca no_fattr [VBytes text] b = enc (TStruct true no_cspec [text_value]) ca no_fattr (VList [VBytes text]) b.
Proof.
  destruct (C86_handed integers nothing_else short_key (body m) lengths no_cspec [text_value] (length_of n) [VBytes text]
              [(7%nat, 5); (short_key (txt "length"), n)] (C85_body_case m)) as (e & E & K & X).
  - constructor; [|constructor]. split; vm_compute; intuition discriminate.
  - exact (length_handed n).
  - cbn. repeat constructor; cbn; intuition discriminate.
  - intros x [<-|[]]. split; [cbn; intuition discriminate|eexists _, _; split; [reflexivity|cbv; intuition discriminate]].
  - reflexivity.
  - split; [reflexivity|]. split; [cbn; intuition discriminate|]. intros x [<-|[]]. reflexivity.
  - intros i f l Hi Hl. destruct i as [|[|i]]; [|discriminate..]. injection Hi as <-. cbn [s_lines value_field] in Hl. apply one_line in Hl. subst l.
    constructor; [|constructor]. intros s Q.
    apply quoted_literal in Q; [|vm_compute; intuition discriminate]. subst s.
    split; [|intros K; vm_compute in K; intuition discriminate]. intros _ _. split; [|split].
    + exists (cast Usize (Z.of_N n)). exists (EName (txt "length")), (VInt (Z.of_N n)). split; [|split; reflexivity]. apply (whole Atom), ra_name. exact (Forall_inv lengths_names).
    + intros _ _. eexists. split; [reflexivity|]. intros y Hy Hf. cbn in Hy, Hf. intuition congruence.
    + intros N. elim N. split; [now left|]. split; [discriminate|]. exists [], []. reflexivity.
  - exists e. split; [exact E|]. split; [apply K|]. intros ca V. now apply X.
Qed.

(** And [Letter] those of [C86_round_trip]. *)
Example C86_case m : let vs := [vi 2; VList [VBytes (txt "ab")]] in exists d e,
  handing_decoder integers nothing_else short_key (letter_source m) = Some d /\
  asking_encoder integers nothing_else short_key (letter_source m) vs = Some e /\
  struct_compiles d [] = true /\ encoder_compiles e [] = true /\
  (exists n pos, run_encoder enc e no_cattr no_fattr vs buf_new = Ok n (mkbuf (hex [2] ++ txt "ab") pos)) /\
  run_struct dec d no_cattr ((hex [2] ++ txt "ab") ++ txt "cde") 0 = Ok (VList vs) 3.
Proof.
  intros vs.
  destruct (C86_round_trip integers nothing_else short_key (letter_source m) [] no_cspec letter_fields nothing_else vs (hex [2] ++ txt "ab") (txt "cde") (C86_letter_case m))
    as (d & e & X).
  - constructor.
  - exact nothing_scope.
  - now left.
  - cbn. repeat constructor; cbn; intuition discriminate.
  - intros x [<-|[<-|[]]]; (split; [cbn; intuition discriminate|eexists _, _; split; [reflexivity|cbv; intuition discriminate]]).
  - reflexivity.
  - split; [reflexivity|]. split; [cbn; intuition discriminate|]. intros x [<-|[<-|[]]]; reflexivity.
  - intros i f l Hi Hl. destruct i as [|[|i]]; cbn [letter_source s_fields nth_error] in Hi; try (destruct i; discriminate); injection Hi as <-; cbn [s_lines] in Hl;
      first [apply no_line in Hl | apply one_line in Hl]; subst l; [|constructor].
    constructor; [|constructor]. intros s Q. split; intros K; vm_compute in K; intuition discriminate.
  - unfold letter_fields, text_value. well.
  - vm_compute. reflexivity.
  - vm_compute. reflexivity.
  - vm_compute. intuition discriminate.
  - exists d, e. exact X.
Qed.

(** The encoder does not see what is handed on: an integer with such a length is not
    written at all, although the decoder reads it; both compile. *)
Definition number_body (m : meaning) : source :=
  mksource [asks_length] [mksource_field (txt "value") [jbytes_line [Property (txt "length") (quoted (txt "length"))]] m (TInt U32)].
Definition number_letter (m : meaning) : source :=
  mksource [] [mksource_field (txt "length") [jbytes_line [Property (txt "variable_name") (quoted (txt "length"))]] m (TInt U8);
               mksource_field (txt "body") [] m (type_of (handing_decoder integers nothing_else short_key (number_body m)))].
Theorem C86_integer_refuted : forall m,
  let decoded s data := match handing_decoder integers nothing_else short_key s with
                        | Some d => if struct_compiles d [] then Some (run_struct dec d no_cattr data 0) else None
                        | None => None
                        end in
  let encoded s vs := match asking_encoder integers nothing_else short_key s vs with
                      | Some e => if encoder_compiles e [] then Some (run_encoder enc e no_cattr no_fattr vs buf_new) else None
                      | None => None
                      end in
  decoded (number_letter m) (hex [2; 1; 2]) = Some (Ok (VList [vi 2; VList [vi 258]]) 3) /\
  encoded (number_letter m) [vi 2; VList [vi 258]] = Some (Ok 1 (mkbuf (hex [2]) 1)) /\
  encoded (number_body m) [vi 258] = Some (Ok 0 buf_new).
Proof. intros m decoded encoded. repeat split; vm_compute; reflexivity. Qed.

Print Assumptions C86_encoder.
Print Assumptions C86_handed.
Print Assumptions C86_round_trip.
Print Assumptions C86_integer_refuted.

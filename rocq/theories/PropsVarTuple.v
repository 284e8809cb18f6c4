(** C88: tuple structs that hand on variables or ask for them. *)
From Coq Require Import Ascii String.
From Verif Require Import Base BaseLemmas Ints SpecOps Reader Writer Sugar TextSpec Text AttrParse AttrSpec AttrLemmas EnumTextSpec EnumTextLemmas GenExpr GenExprSpec
  GenExprLemmas PropsExpr PropsAttr GenDecode GenSpec PropsGen GenEncode GenEncodeSpec PropsGenEncode Source SourceSpec SourceLemmas PropsSource
  TupleSource TupleSpec PropsTuple EnumSource EnumSourceSpec EnumSourceLemmas PropsEnumSource FieldSpec PropsModifiers
  Decode Encode Spec Collections Containers NetLemmas PropsContainers WireSpec Examples VarSource VarSourceSpec VarSourceLemmas PropsVarSource PropsVarEnum
  VarEncode VarEncodeSpec VarEncodeLemmas PropsVarEncode VarTuple VarTupleSpec Schema.
Close Scope string_scope.

(** ** Decoder *)
Lemma tuple_derived A others key s gets c l : tuple_hands A others key s gets c l ->
  exists ca fs, handing_tuple_decoder A others key s = Some (mkdecl false (if container_used (u_container s) then Some (container_spec ca) else None) (Some fs)) /\
    match (if container_used (u_container s) then Some (container_spec ca) else None) with Some c => c | None => no_cspec end = c /\
    nameless fs = l /\ map n_name fs = tuple_names s.
Proof.
  intros [(ls & L & CE & NC & DO & DW & names & DN & W & EG & OV) HF]. unfold handing_tuple_decoder.
  destruct (container_parsed _ _ _ L CE DO DW) as (ca & -> & EC). rewrite (asked_read _ _ _ L DN W), (no_codec_read _ _ L NC).
  pose proof (decided_names _ _ _ DN) as G. rewrite <- EG in *. exists ca.
  rewrite (all_usable taken_names gets G OV). cbn [negb orb]. destruct (handing_read _ _ _ _ _ _ _ HF) as (fs & -> & EN & ET). exists fs.
  rewrite called_names in ET. auto.
Qed.
Lemma names_numbered fs n : map n_name fs = map tuple_name (seq 0 n) -> numbered fs.
Proof.
  intros EN i f Hi. assert (X : nth_error (map n_name fs) i = Some (n_name f)) by (rewrite nth_error_map, Hi; reflexivity).
  rewrite EN, nth_error_map in X. destruct (nth_error (seq 0 _) i) as [j|] eqn:J; [|discriminate]. injection X as <-. f_equal.
  assert (Y : (i < length (seq 0 n))%nat) by (apply nth_error_Some; congruence).
  apply (nth_error_nth _ _ 0%nat) in J. rewrite seq_length in Y. rewrite seq_nth in J by exact Y. exact (eq_sym J).
Qed.
Lemma first_used_hand A others key gets s l : fields_hand A others key gets [] (called_by tuple_name 0 (u_fields s)) l -> first_attributed s ->
  match l with [] => True | (f, _) :: _ => f_use f = true end.
Proof.
  unfold first_attributed. destruct (u_fields s) as [|f r]; intros H HF; inversion H as [|? ? ? l0 gs names more L D S V W H' E1 E2 E3]; subst; [exact Logic.I|].
  destruct HF as (e & l & HF). cbn [s_lines] in *. rewrite (first_line_unique _ _ _ _ L HF) in S.
  inversion S as [|? g ? gs' S0 S1]; subst. cbn [fold_left f_use set_vars].
  assert (X : f_use (g plain) = true) by (destruct S0; reflexivity).
  clear - X S1. revert X. generalize (g plain). clear g. induction S1 as [|e' g l gs S _ IH]; intros p X; [exact X|]. cbn [fold_left]. apply IH.
  destruct S; reflexivity || exact X.
Qed.
Lemma tuple_decoder_compiles A others key s gets c l : tuple_hands A others key s gets c l ->
  u_container s = [] \/ (forall f x, In f (called_by tuple_name 0 (u_fields s)) -> ~ publishes f x) ->
  first_attributed s -> N.of_nat (length (u_fields s)) < 2 ^ 64 ->
  exists o fs, handing_tuple_decoder A others key s = Some (mkdecl false o (Some fs)) /\
    match o with Some c => c | None => no_cspec end = c /\ nameless fs = l /\
    (forall vars, struct_compiles (mkdecl false o (Some fs)) vars = true) /\ ~ position_taken fs.
Proof.
  intros H HC HA HB. destruct (tuple_derived _ _ _ _ _ _ _ H) as (ca & fs & E & EC & EN & ET).
  eexists _, fs. split; [exact E|]. split; [exact EC|]. split; [exact EN|].
  set (o := if container_used (u_container s) then Some (container_spec ca) else None) in *.
  destruct (C65_numbers fs (names_numbered _ _ ET)) as [D R].
  { rewrite <- (map_length n_name), ET. unfold tuple_names. now rewrite map_length, seq_length. }
  assert (K : forall vars, struct_compiles (mkdecl false o (Some fs)) vars = true /\ ~ position_taken fs).
  { intros vars. apply C65_compiles; [reflexivity|exact D|exact R| |].
    - intros NO g Hg. destruct HC as [HC|HC].
      + elim NO. cbn [d_container]. unfold o. now rewrite HC.
      + apply (no_publishers _ _ _ _ _ _ _ (th_fields _ _ _ _ _ _ _ H) HC (n_spec g, n_type g)). rewrite <- EN.
        unfold nameless. apply in_map_iff. exists g. auto.
    - right. pose proof (first_used_hand _ _ _ _ _ _ (th_fields _ _ _ _ _ _ _ H) HA) as U. rewrite <- EN in U. destruct fs; [exact Logic.I|exact U]. }
  split; [intros vars; apply K|]. apply (K []).
Qed.
(** The decoder of a tuple struct with variables compiles, and reads the type the text
    describes. *)
Theorem C88_decoder : forall A others key s gets c l, tuple_hands A others key s gets c l ->
  u_container s = [] \/ (forall f x, In f (called_by tuple_name 0 (u_fields s)) -> ~ publishes f x) ->
  first_attributed s -> N.of_nat (length (u_fields s)) < 2 ^ 64 ->
  exists d, handing_tuple_decoder A others key s = Some d /\ (forall vars, struct_compiles d vars = true) /\
    forall ca fa data p, run_struct dec d ca data p = dec (TStruct false c l) ca fa data p.
Proof.
  intros A others key s gets c l H HC HA HB. destruct (tuple_decoder_compiles _ _ _ _ _ _ _ H HC HA HB) as (o & fs & E & EC & EN & K & P).
  eexists. split; [exact E|]. split; [exact K|]. intros ca fa data p.
  rewrite (C65_struct (mkdecl false o (Some fs)) fs ca fa data p eq_refl (K _) P). cbn [d_named].
  unfold GenDecode.container_of. cbn [d_container]. now rewrite EC, EN.
Qed.

(** What another type finds under [v0], [v1] and so on, if the tuple publishes them. *)
Lemma tuple_names_distinct n : N.of_nat n < 2 ^ 64 -> NoDup (map tuple_name (seq 0 n)).
Proof.
  intros H. set (fs := map (fun i => mkfield (tuple_name i) plain TBytes) (seq 0 n)).
  assert (E : map n_name fs = map tuple_name (seq 0 n)) by (unfold fs; rewrite map_map; reflexivity).
  rewrite <- E. apply (C65_numbers fs).
  - exact (names_numbered _ _ E).
  - unfold fs. now rewrite map_length, seq_length.
Qed.
Lemma called_length name i fs : length (called_by name i fs) = length fs.
Proof. revert i. induction fs as [|f fs IH]; intros i; cbn; auto. Qed.
Theorem C88_numbers : forall A others key s c l vs gets others' scope before bs text z, (forall x y, key x = key y -> x = y) ->
  tuple_hands A others key s [] c l -> N.of_nat (length (u_fields s)) < 2 ^ 64 -> length vs = length (u_fields s) -> Forall a_name gets ->
  in_scope gets (called_by tuple_name 0 (u_fields s)) vs others' scope ->
  let en := mkenv bs (rev (FieldSpec.published [] (map fst l) [] vs)) in
  (number_is A scope (combine before bs) text z -> handed_number A others' key gets var_code before text en = z) /\
  (order_is A scope (combine before bs) text z -> handed_number A others' key gets GenExpr.order_code before text en = z).
Proof.
  intros A others key s c l vs gets others' scope before bs text z K [_ H] HB HL G SC.
  apply (C84_numbers A others key _ l vs gets others' scope before bs text z K H); auto.
  - rewrite called_names. now apply tuple_names_distinct.
  - now rewrite called_length.
Qed.
(** A tuple that asks for variables cannot hand any on either. *)
Theorem C88_relay_refuted : forall A others key s gets c l f x, tuple_hands A others key s gets c l ->
  gets <> [] -> In f (called_by tuple_name 0 (u_fields s)) -> publishes f x ->
  exists d, handing_tuple_decoder A others key s = Some d /\ forall vars, struct_compiles d vars = false.
Proof.
  intros A others key s gets c l f x H NE Hf P. destruct (tuple_derived _ _ _ _ _ _ _ H) as (ca & fs & E & _ & EN & _).
  eexists. split; [exact E|]. intros vars.
  assert (U : container_used (u_container s) = true).
  { destruct H as [(ls & L & _ & _ & _ & _ & names & DN & _ & EG & _) _]. apply first_found in L. unfold container_used.
    destruct (find _ _) as [a|].
    - destruct (t_entries a); [|reflexivity]. subst ls. apply decided_nil in DN. subst names. now elim NE.
    - subst ls. apply decided_nil in DN. subst names. now elim NE. }
  rewrite U.
  assert (X : exists ft, In ft l /\ f_vars (fst ft) <> []).
  { destruct H as [_ HF]. clear - HF Hf P. induction HF as [before|before g r l gs names more L D S V W HF IH]; [easy|].
    destruct Hf as [->|Hf].
    - eexists. split; [now left|]. cbn [fst f_vars set_vars]. apply (publishes_names f l names x L V W) in P.
      destruct (match names with Some xs => xs | None => [] end); [destruct P|discriminate].
    - destruct (IH Hf) as (ft & I & N). exists ft. split; [now right|exact N]. }
  destruct X as (ft & I & N). rewrite <- EN in I. unfold nameless in I. apply in_map_iff in I as (g & <- & I). cbn [fst] in N.
  apply (C65_variable_refuted false (container_spec ca) fs vars g I N).
Qed.

(** ** Encoder *)
Lemma reads_names text e ts : reads_as Disjunction text e -> lex [] text = Some ts -> names e = GenExprSpec.bare ts.
Proof.
  intros H HL. apply var_reads in H. destruct (lex_reads _ _ _ H) as (ts' & L & T).
  destruct (parse_tokens _ _ _ T 0%nat [] 1%nat (ECast e (txt "usize"), [])) as (k & P); [lia|easy|reflexivity|]. rewrite app_nil_r in P.
  apply parse_all_complete in P. rewrite lex_var_code, HL in L. injection L as <-.
  exact (core_names true ts (txt "usize") _ P).
Qed.
Lemma eval_plain A scope scope' e : (forall x, In x (names e) -> scope' x = option_map Plain (scope x)) ->
  eval (with_tuple A) scope' e = option_map Plain (eval A scope e).
Proof.
  induction e as [n|x|e IH f|e IH t|o a IHa b IHb]; cbn [names]; intros H; cbn.
  - reflexivity.
  - apply H. now left.
  - rewrite IH by exact H. destruct (eval A scope e); reflexivity.
  - rewrite IH by exact H. destruct (eval A scope e); reflexivity.
  - rewrite IHa by (intros x Hx; apply H, in_or_app; now left). rewrite IHb by (intros x Hx; apply H, in_or_app; now right).
    destruct (eval A scope a); [|reflexivity]. destruct (eval A scope b); reflexivity.
Qed.
Lemma listed_length A others gets names vs text before z en : number_is A others before text z -> no_field names text ->
  (forall x, In x (map fst before) -> In x names) -> others (txt "self") = None -> ~ In (txt "self") names -> in_the_list gets text ->
  tuple_number A others (asked_code gets) vs text en = z.
Proof.
  intros (e & v & R & EV & C) (ts & HL & NF) HB HS NS IL. unfold tuple_number, tuple_value.
  assert (E : asked_code gets true text = var_code false text).
  { unfold asked_code, length_code. destruct gets as [|g gets]; [now destruct IL|]. apply listed_text in IL; [|discriminate]. now rewrite IL. }
  rewrite E, (C66_text _ _ _ _ _ (var_reads _ _ R)). cbn [eval].
  rewrite (eval_plain A (decoder_scope before others)).
  - rewrite EV. cbn [option_map a_cast with_tuple]. change (list_byte_of_string "usize") with (txt "usize") in C. now rewrite C.
  - intros x Hx. unfold encoder_scope. destruct (bytes_eqb x (txt "self")) eqn:EX.
    + apply bytes_eqb_eq in EX. subst x. rewrite (eval_missing A (decoder_scope before others) e _ Hx) in EV; [discriminate|].
      unfold decoder_scope. destruct (find _ before) as [[y w]|] eqn:F; [|exact HS].
      apply find_some in F as [I F]. apply bytes_eqb_eq in F. cbn [fst] in F. subst y. elim NS. apply HB. now apply (in_map fst) in I.
    + unfold decoder_scope. destruct (find _ before) as [[y w]|] eqn:F; [|reflexivity].
      apply find_some in F as [I F]. apply bytes_eqb_eq in F. cbn [fst] in F. subst y.
      elim (NF x); [rewrite <- (reads_names _ _ _ R HL); exact Hx|]. apply HB. now apply (in_map fst) in I.
Qed.
Lemma combine_fst {X Y} (xs : list X) (ys : list Y) x : In x (map fst (combine xs ys)) -> In x xs.
Proof. intros H. apply in_map_iff in H as ([a b] & <- & H). now apply in_combine_l in H. Qed.
Lemma firstn_in {X} n (l : list X) x : In x (firstn n l) -> In x l.
Proof. intros H. rewrite <- (firstn_skipn n l). apply in_or_app. now left. Qed.
Lemma tuple_asking_written A others key gets vars scope vs names : Forall a_name gets -> handed_in gets key vars others scope ->
  scope (txt "self") = None -> ~ In (txt "self") names ->
  forall fs i before l, fields_hand A others key gets before (called_by tuple_name i fs) l -> before = firstn i names -> length before = i ->
  names = before ++ map s_name (called_by tuple_name i fs) ->
  (forall j f l, nth_error fs j = Some f -> first_line ["jbytes"%string] (u_lines f) l ->
     Forall (tuple_asking_entry A scope gets (firstn (i + j) names) (combine (firstn (i + j) names) (firstn (i + j) vs))) l) ->
  exists out, read_asking (fun code => asking_tuple_number A others key gets code vs) gets (called_by index_name i fs) = Some out /\
    Forall2 (fun f g => snd f = snd g) (nameless out) l /\
    (forall g, In g l -> f_value_encode (fst g) = None) /\
    (forall j f g, nth_error (nameless out) j = Some f -> nth_error l j = Some g ->
       alike (mkenv (firstn (i + j) vs) vars) (fst f) (fst g)).
Proof.
  intros HG HS HSelf NSelf. pose proof (handed_scope key gets vars others scope HG HS) as EZ.
  induction fs as [|f fs IH]; intros i before l H HB HLB HN HW; cbn [called_by] in H; inversion H as [|? ? ? l0 gs xs more L D S V W H' E1 E2 E3]; subst l.
  - exists []. split; [reflexivity|]. split; [constructor|]. split; [easy|]. intros [|j]; discriminate.
  - cbn [s_lines s_meaning s_type s_name] in *.
    destruct (IH (Datatypes.S i) (before ++ [tuple_name i]) more H') as (out & R & ET & EV & EA).
    { rewrite HN at 1. cbn [called_by map s_name]. replace (Datatypes.S i) with (length before + 1)%nat by lia.
      rewrite firstn_app_2. reflexivity. }
    { rewrite app_length. cbn. lia. }
    { rewrite HN. cbn [called_by map s_name]. now rewrite <- app_assoc. }
    { intros j f' l' Hj Hl. replace (Datatypes.S i + j)%nat with (i + Datatypes.S j)%nat by lia. exact (HW (Datatypes.S j) f' l' Hj Hl). }
    pose proof (HW 0%nat f l0 eq_refl L) as HW0. rewrite Nat.add_0_r in HW0.
    set (number := fun code => asking_tuple_number A others key gets code vs) in *.
    set (en := mkenv (firstn i vs) vars).
    destruct (entries_sized (handed_number A others key gets var_code before) (handed_number A others key gets GenExpr.order_code before)
                (number var_code) (number (asked_code gets)) (number GenExpr.order_code) (u_meaning f) en l0 gs S) as (gs' & gs'' & S' & S'' & G).
    destruct (C50_all _ _ _ S') as (fa & P & Q). destruct (C50_all _ _ _ S'') as (fa' & P' & Q').
    assert (fa' = fa) by congruence. subst fa'.
    cbn [called_by read_asking s_lines s_name s_meaning s_type]. rewrite (first_line_parsed _ _ L D), P, R, Q, Q'.
    eexists. split; [reflexivity|]. unfold nameless in *. cbn [map n_spec n_type n_name]. split; [constructor; [reflexivity|exact ET]|]. split.
    + intros g' [<-|Hg]; [|now apply EV]. cbn [fst f_value_encode set_vars]. clear - S HW0. assert (X : f_value_encode plain = None) by reflexivity. revert X. generalize plain.
      induction S as [|e g l gs S _ IH]; intros p X; [exact X|]. cbn [fold_left]. inversion HW0 as [|? ? W HW']; subst. apply IH; [exact HW'|].
      destruct S; try exact X. destruct W as [W _]. elim W. assumption.
    + intros [|j] f' g' Hf Hg; cbn [nth_error] in Hf, Hg.
      * injection Hf as <-. injection Hg as <-. cbn [fst]. rewrite Nat.add_0_r. fold en. apply alike_set_vars, alike_sym, G.
        -- eapply Forall_impl; [|exact HW0]. intros [t|k lit] X; [exact Logic.I|]. intros s Q0. destruct X as [_ X]. destruct (X s Q0) as [X1 X2]. cbn [m_number m_order with_numbers].
           split; [|split].
           ++ intros K NK E. destruct (X1 K E) as (C & _). now elim NK.
           ++ intros K E. destruct (X1 (called_sub k ["length"%string] number_keys K ltac:(intros ? [<-|[]]; left; reflexivity)) E) as (_ & IL & NF & z & Z).
              apply (scope_number A _ _ _ s z EZ) in Z.
              destruct (numbers_agree A (asked key gets vars others) names vs s i vars z Z) as [E1' _]. rewrite <- HB in E1'.
              transitivity z; [exact E1'|]. symmetry. unfold number, asking_tuple_number. cbn [ev_vars en].
              apply (listed_length A (asked key gets vars others) gets (firstn i names) vs s (combine (firstn i names) (firstn i vs)) z en Z NF); auto.
              ** intros x Hx. now apply combine_fst in Hx.
              ** now rewrite <- EZ.
              ** intros I. apply NSelf. now apply firstn_in in I.
           ++ intros K E. elim E. now apply X2.
        -- unfold alike_but. apply alike_refl.
        -- reflexivity.
      * replace (i + Datatypes.S j)%nat with (Datatypes.S i + j)%nat by lia. now apply EA.
Qed.
(** The encoder of a tuple struct with variables compiles, and writes the type the text
    describes, with the values that are handed on (a hand-written encoder may do so). *)
Theorem C88_handed : forall A others key s gets c l vars scope vs,
  tuple_hands A others key s gets c l -> Forall free_variable gets -> handed_in gets key vars others scope ->
  scope (list_byte_of_string "self") = None -> length vs = length (u_fields s) -> tuple_asking_writable A scope gets s vs ->
  exists e, asking_tuple_encoder A others key s vs = Some e /\ (forall taken, encoder_compiles e taken = true) /\
    forall ca fa b, k_vars ca = vars -> run_encoder enc e ca fa vs b = enc (TStruct false c l) ca fa (VList vs) b.
Proof.
  intros A others key s gets c l vars scope vs [(ls & L & CE & NC & DO & DW & names & DN & W & EG & OV) HF] FV SC HS LV WR. unfold asking_tuple_encoder.
  destruct (container_parsed _ _ _ L CE DO DW) as (ca & -> & EC). rewrite (asked_read _ _ _ L DN W), (no_codec_read _ _ L NC).
  pose proof (decided_names _ _ _ DN) as G. rewrite <- EG in *.
  rewrite (all_usable encoder_taken gets G).
  2:{ rewrite Forall_forall in FV |- *. intros x Hx I. destruct (FV x Hx) as [F1 F2]. cbn [map encoder_taken In] in I.
      destruct I as [I|[I|[I|[I|[I|[I|[I|[I|[I|[]]]]]]]]]]; first [apply F1; rewrite <- I; cbn; tauto|apply F2; rewrite <- I; cbn; tauto]. }
  cbn [negb orb].
  destruct (tuple_asking_written A others key gets vars scope vs (tuple_names s) G SC HS) with (fs := u_fields s) (i := 0%nat) (before := @nil bytes) (l := l) as (gs & -> & ET & EV & EA);
    [|exact HF|reflexivity|reflexivity|unfold tuple_names; now rewrite called_names| |].
  { intros I. apply in_map_iff in I as (i & E & _). discriminate. }
  { intros j f l' Hj Hl. exact (WR j f l' Hj Hl). }
  set (o := if container_used (u_container s) then Some (container_spec ca) else None) in *.
  assert (LG : length vs = length gs).
  { pose proof (hand_length _ _ _ _ _ _ _ HF) as X. rewrite called_length in X. rewrite LV, <- X, <- (map_length (fun f => (n_spec f, n_type f)) gs).
    change (length l = length (nameless gs)). clear - ET. induction ET; cbn; auto. }
  eexists. split; [reflexivity|].
  assert (K : forall taken, encoder_compiles (mkdecl false o (Some gs)) taken = true).
  { intros taken. apply (C69_compiles (mkdecl false o (Some gs)) gs taken eq_refl). intros f Hf (_ & _ & X & _). elim X.
    apply In_nth_error in Hf as (i & Hi).
    assert (Hi' : nth_error (nameless gs) i = Some (n_spec f, n_type f)) by (unfold nameless; rewrite nth_error_map, Hi; reflexivity).
    destruct (nth_error l i) as [g|] eqn:Hg.
    - pose proof (al_ve _ _ _ (EA i _ _ Hi' Hg)) as Y. cbn [fst] in Y. rewrite Y. apply EV. now apply nth_error_In in Hg.
    - apply nth_error_None in Hg. assert (i < length gs)%nat by (apply nth_error_Some; congruence).
      pose proof (hand_length _ _ _ _ _ _ _ HF) as Y. rewrite called_length in Y. lia. }
  split; [exact K|]. intros cb fa b KV.
  rewrite (C69_struct (mkdecl false o (Some gs)) gs cb fa vs b eq_refl (K _) LG). cbn [d_named].
  unfold GenDecode.container_of. cbn [d_container]. rewrite EC. cbn [enc]. rewrite KV. apply alike_fields; [exact ET|exact EA].
Qed.
(** Encoders that are derived hand on nothing: there are zeros then. *)
Theorem C88_encoder : forall A others key s gets c l scope vs,
  tuple_hands A others key s gets c l -> Forall free_variable gets -> in_scope gets [] [] others scope ->
  scope (list_byte_of_string "self") = None -> length vs = length (u_fields s) -> tuple_asking_writable A scope gets s vs ->
  exists e, asking_tuple_encoder A others key s vs = Some e /\ (forall vars, encoder_compiles e vars = true) /\
    forall ca fa b, k_vars ca = [] -> run_encoder enc e ca fa vs b = enc (TStruct false c l) ca fa (VList vs) b.
Proof.
  intros A others key s gets c l scope vs H FV SC. apply (C88_handed A others key s gets c l [] scope vs H FV). now apply zero_handed.
Qed.

(** What the one writes the other reads back, each derived for the tuple as it is written,
    with the variables that the decoder hands on. *)
Theorem C88_round_trip : forall A others key s gets c l scope vs w rest, let t := TStruct false c l in
  tuple_hands A others key s gets c l -> Forall free_variable gets -> in_scope gets [] [] others scope ->
  u_container s = [] \/ (forall f x, In f (called_by tuple_name 0 (u_fields s)) -> ~ publishes f x) ->
  first_attributed s -> N.of_nat (length (u_fields s)) < 2 ^ 64 ->
  scope (list_byte_of_string "self") = None -> length vs = length (u_fields s) -> tuple_asking_writable A scope gets s vs ->
  well_formed t -> wire t no_cattr no_fattr (VList vs) = Some w -> fits t no_cattr no_fattr (VList vs) rest = true ->
  allocatable (w ++ rest) ->
  exists d e, handing_tuple_decoder A others key s = Some d /\ asking_tuple_encoder A others key s vs = Some e /\
    struct_compiles d [] = true /\ encoder_compiles e [] = true /\
    (exists n pos, run_encoder enc e no_cattr no_fattr vs buf_new = Ok n (mkbuf w pos)) /\
    run_struct dec d no_cattr (w ++ rest) 0 = Ok (VList vs) (size w).
Proof.
  intros A others key s gets c l scope vs w rest t H FV SC HC HA HB HS LV WR WF WI FI AL.
  destruct (C88_encoder A others key s gets c l scope vs H FV SC HS LV WR) as (e & E & KE & X).
  destruct (C88_decoder A others key s gets c l H HC HA HB) as (d & D & K & Y).
  exists d, e. split; [exact D|]. split; [exact E|]. split; [apply K|]. split; [apply KE|].
  destruct (C30_round_trip t (VList vs) w rest WF WI FI AL) as [He Hd]. split.
  - rewrite (X no_cattr no_fattr buf_new eq_refl). fold t.
    unfold encode, encode_into in He. destruct (enc t no_cattr no_fattr (VList vs) buf_new) as [n b| | |]; try discriminate.
    injection He as He. exists n, (b_pos b). destruct b. cbn in *. now subst.
  - rewrite (Y no_cattr no_fattr). exact Hd.
Qed.

(** ** Examples *)

(** [#[jbytes(get_variable_name = "v0")] struct Words(#[jbytes(length = "v0")] String)] and
    [struct Packet(#[jbytes(variable_name = "v0")] u8, Words)]. *)
Definition v_key (x : bytes) : nat := if bytes_eqb x (txt "v0") then O else Datatypes.S (key_of x).
Lemma v_key_injective x y : v_key x = v_key y -> x = y.
Proof.
  unfold v_key. destruct (bytes_eqb x (txt "v0")) eqn:X, (bytes_eqb y (txt "v0")) eqn:Y; intros H; try discriminate.
  - apply bytes_eqb_eq in X, Y. congruence.
  - injection H as H. now apply key_of_injective.
Qed.
Definition firsts : list bytes := [txt "v0"].
Definition asks_first : attribute := jbytes_line [Property (txt "get_variable_name") (quoted (txt "v0"))].
Definition words (m : meaning) : tuple_source :=
  mktuple [asks_first] [mktuple_field [jbytes_line [Property (txt "length") (quoted (txt "v0"))]] m TString].
Definition words_fields : list (fspec * ty) :=
  [(at_length (handed_number integers nothing_else v_key firsts var_code [] (txt "v0")) plain, TString)].
Definition packet (m : meaning) : tuple_source :=
  mktuple [] [mktuple_field [jbytes_line [Property (txt "variable_name") (quoted (txt "v0"))]] m (TInt U8);
              mktuple_field [] m (TStruct false no_cspec words_fields)].
Definition packet_fields : list (fspec * ty) :=
  [(with_variables [(v_key (txt "v0"), published_number integers nothing_else v_key [] [txt "v0"] (txt "v0"))] plain, TInt U8);
   (plain, TStruct false no_cspec words_fields)].
Lemma firsts_names : Forall a_name firsts.
Proof. constructor; [|constructor]. split; [split; [left; vm_compute; split; discriminate|constructor; [right; vm_compute; split; discriminate|constructor]]|discriminate]. Qed.
Example C88_words_case m : tuple_hands integers nothing_else v_key (words m) firsts no_cspec words_fields.
Proof.
  assert (AN : about_names "get_variable_name" (Property (txt "get_variable_name") (quoted (txt "v0"))) firsts).
  { apply (listed_entry "get_variable_name" firsts); [discriminate|exact firsts_names|]. split; [reflexivity|vm_compute; intuition discriminate]. }
  constructor.
  - eexists. split; [apply this_line; now left|]. split; [|split; [|split; [|split; [|exists (Some firsts); split; [|split; [|split; [reflexivity|]]]]]]].
    + constructor; [|constructor]. right. right. right. left. now left.
    + constructor; [|constructor]. vm_compute. intuition discriminate.
    + apply undecided. intros e a [<-|[]] H. inversion H as [? ? K|? ? K]; subst; vm_compute in K; intuition discriminate.
    + apply undecided. intros e a [<-|[]] H. inversion H as [|? ? ? K]; subst; vm_compute in K; intuition discriminate.
    + apply (decided_by _ []); [exact AN|easy].
    + intros k lit [[= <- <-]|[]] _. exists firsts. exact AN.
    + repeat constructor; intros I; vm_compute in I; intuition discriminate.
  - unfold words, words_fields. cbn [u_fields called_by u_lines u_meaning u_type].
    eapply (more_hand _ _ _ _ _ _ _ _ [at_length (handed_number integers nothing_else v_key firsts var_code [] (txt "v0"))] None);
      [reflexivity|reflexivity|apply this_line; now left|apply no_default| | | |constructor].
    + constructor; [|constructor]. apply says_length; [left; reflexivity|]. apply denotes_expression with (s := txt "v0").
      * split; [reflexivity|vm_compute; intuition discriminate].
      * split; [vm_compute; intuition discriminate|discriminate].
    + apply undecided. intros e a [<-|[]] (k & lit & [= <- _] & K & _). vm_compute in K. intuition discriminate.
    + intros k lit [[= <- <-]|[]] K. vm_compute in K. intuition discriminate.
Qed.
Example C88_packet_case m : tuple_hands integers nothing_else v_key (packet m) [] no_cspec packet_fields.
Proof.
  assert (AN : about_names "variable_name" (Property (txt "variable_name") (quoted (txt "v0"))) firsts).
  { apply (listed_entry "variable_name" firsts); [discriminate|exact firsts_names|]. split; [reflexivity|vm_compute; intuition discriminate]. }
  assert (NO : ~ (exists a : attribute, In a [] /\ called (t_name a) ["default"%string])) by (intros (a & [] & _)).
  constructor.
  - exists []. split; [right; easy|]. repeat split; try (constructor; fail); try (apply undecided; easy).
    exists None. repeat split; [apply undecided; easy|easy|constructor].
  - unfold packet, packet_fields. cbn [u_fields called_by u_lines u_meaning u_type].
    set (f := mksource_field (tuple_name 0) _ _ _).
    set (M := handed_meaning integers nothing_else v_key [] [] f).
    eapply (more_hand _ _ _ _ _ _ _ _ [with_variables (map (fun x => (m_name M x, m_number M x)) firsts)] (Some firsts));
      [reflexivity|reflexivity|apply this_line; now left|apply no_default| | | |].
    { constructor; [|constructor]. apply says_variables; [now left|discriminate| |].
      - repeat constructor; vm_compute; intuition discriminate.
      - split; [reflexivity|vm_compute; intuition discriminate]. }
    { apply (decided_by _ []); [exact AN|easy]. }
    { intros k lit [[= <- <-]|[]] _. exists firsts. exact AN. }
    apply (more_hand _ _ _ _ _ _ _ [] [] None); [reflexivity|reflexivity|now right|exact NO|constructor|now apply undecided|easy|constructor].
Qed.
Definition zero_first (x : bytes) : option val := if bytes_eqb x (txt "v0") then Some (VInt 0) else None.
Lemma zero_first_scope : in_scope firsts [] [] nothing_else zero_first.
Proof.
  intros x. split.
  - intros [<-|[]]. exists 0. split; [apply hands_nothing; intros f []|reflexivity].
  - intros N. unfold zero_first. destruct (bytes_eqb x (txt "v0")) eqn:E; [|reflexivity]. apply bytes_eqb_eq in E. elim N. now left.
Qed.
(** [Words] meets the conditions of [C88_encoder] and [C88_decoder]. *)
Example C88_words_run m text b data p found : exists d e,
  handing_tuple_decoder integers nothing_else v_key (words m) = Some d /\
  asking_tuple_encoder integers nothing_else v_key (words m) [VBytes text] = Some e /\
  struct_compiles d (k_vars found) = true /\ encoder_compiles e [] = true /\
  run_struct dec d found data p = dec (TStruct false no_cspec words_fields) found no_fattr data p /\
  run_encoder enc e no_cattr no_fattr [VBytes text] b = enc (TStruct false no_cspec words_fields) no_cattr no_fattr (VList [VBytes text]) b.
Proof.
  destruct (C88_decoder _ _ _ _ _ _ _ (C88_words_case m)) as (d & D & KD & Y).
  { right. intros f x [<-|[]] (l & names & F & DD & _). cbn [s_lines] in F. apply one_line in F. subst l.
    inversion DD as [|l' e r xs (k & lit & -> & K & _) _ E1].
    destruct l' as [|? l']; [|destruct l'; discriminate]. injection E1 as EK _ _. subst k. vm_compute in K. intuition discriminate. }
  { eexists _, _. apply this_line. now left. }
  { reflexivity. }
  destruct (C88_encoder integers nothing_else v_key (words m) firsts no_cspec words_fields zero_first [VBytes text] (C88_words_case m)) as (e & E & K & X).
  - constructor; [|constructor]. split; vm_compute; intuition discriminate.
  - exact zero_first_scope.
  - reflexivity.
  - reflexivity.
  - intros i f l Hi Hl. destruct i as [|[|i]]; [|discriminate..]. injection Hi as <-. cbn [u_lines] in Hl. apply one_line in Hl. subst l.
    constructor; [|constructor]. split; [vm_compute; intuition discriminate|]. intros s Q.
    apply quoted_literal in Q; [|vm_compute; intuition discriminate]. subst s.
    split; [|intros K; vm_compute in K; intuition discriminate]. intros _ _. split; [now left|]. split; [split; [discriminate|exists [], []; reflexivity]|]. split.
    + eexists. split; [reflexivity|]. intros y Hy [].
    + exists 0%Z. exists (EName (txt "v0")), (VInt 0). split; [|split; reflexivity]. apply (whole Atom), ra_name. exact (Forall_inv firsts_names).
  - exists d, e. split; [exact D|]. split; [exact E|]. split; [apply KD|]. split; [apply K|]. split; [apply Y|]. now apply X.
Qed.
Definition first_of (n : N) (x : bytes) : option val := if bytes_eqb x (txt "v0") then Some (VInt (Z.of_N n)) else None.
Example C88_handed_case m n text b : exists e,
  asking_tuple_encoder integers nothing_else v_key (words m) [VBytes text] = Some e /\ encoder_compiles e [] = true /\
  forall ca, k_vars ca = [(7%nat, 5); (v_key (txt "v0"), n)] ->
  run_encoder enc e ca no_fattr [VBytes text] b = enc (TStruct false no_cspec words_fields) ca no_fattr (VList [VBytes text]) b.
Proof.
  destruct (C88_handed integers nothing_else v_key (words m) firsts no_cspec words_fields [(7%nat, 5); (v_key (txt "v0"), n)] (first_of n) [VBytes text] (C88_words_case m)) as (e & E & K & X).
  - constructor; [|constructor]. split; vm_compute; intuition discriminate.
  - intros x. split.
    + intros [<-|[]]. exists n. split; [|reflexivity]. left. exists [(7%nat, 5)], []. split; [reflexivity|]. cbn. intros [H|[]]. vm_compute in H. discriminate.
    + intros N. unfold first_of. destruct (bytes_eqb x (txt "v0")) eqn:E; [|reflexivity]. apply bytes_eqb_eq in E. elim N. now left.
  - reflexivity.
  - reflexivity.
  - intros i f l Hi Hl. destruct i as [|[|i]]; [|discriminate..]. injection Hi as <-. cbn [u_lines] in Hl. apply one_line in Hl. subst l.
    constructor; [|constructor]. split; [vm_compute; intuition discriminate|]. intros s Q.
    apply quoted_literal in Q; [|vm_compute; intuition discriminate]. subst s.
    split; [|intros K; vm_compute in K; intuition discriminate]. intros _ _. split; [now left|]. split; [split; [discriminate|exists [], []; reflexivity]|]. split.
    + eexists. split; [reflexivity|]. intros y Hy [].
    + exists (cast Usize (Z.of_N n)). exists (EName (txt "v0")), (VInt (Z.of_N n)). split; [|split; reflexivity]. apply (whole Atom), ra_name. exact (Forall_inv firsts_names).
  - exists e. split; [exact E|]. split; [apply K|]. intros ca V. now apply X.
Qed.
(** And [Packet] those of [C88_round_trip]. *)
Example C88_case m : let vs := [vi 2; VList [VBytes (txt "ab")]] in exists d e,
  handing_tuple_decoder integers nothing_else v_key (packet m) = Some d /\
  asking_tuple_encoder integers nothing_else v_key (packet m) vs = Some e /\
  struct_compiles d [] = true /\ encoder_compiles e [] = true /\
  (exists n pos, run_encoder enc e no_cattr no_fattr vs buf_new = Ok n (mkbuf (hex [2] ++ txt "ab") pos)) /\
  run_struct dec d no_cattr ((hex [2] ++ txt "ab") ++ txt "cde") 0 = Ok (VList vs) 3.
Proof.
  intros vs.
  destruct (C88_round_trip integers nothing_else v_key (packet m) [] no_cspec packet_fields nothing_else vs (hex [2] ++ txt "ab") (txt "cde") (C88_packet_case m))
    as (d & e & X).
  - constructor.
  - exact nothing_scope.
  - now left.
  - eexists _, _. apply this_line. now left.
  - reflexivity.
  - reflexivity.
  - reflexivity.
  - intros i f l Hi Hl. destruct i as [|[|i]]; cbn [packet u_fields nth_error] in Hi; try (destruct i; discriminate); injection Hi as <-; cbn [u_lines] in Hl;
      first [apply no_line in Hl | apply one_line in Hl]; subst l; [|constructor].
    constructor; [|constructor]. split; [vm_compute; intuition discriminate|]. intros s Q. split; intros K; vm_compute in K; intuition discriminate.
  - unfold packet_fields, words_fields. well.
  - vm_compute. reflexivity.
  - vm_compute. reflexivity.
  - vm_compute. intuition discriminate.
  - exists d, e. exact X.
Qed.

(** [#[jbytes(get_variable_name = "v0")] struct Own(#[jbytes(byteorder = "BE")] u8,
    #[jbytes(length = "v0")] u32)]: in the decoder [v0] is the first field, in the encoder the
    variable, and that is 0. Both compile; [Own(2, 258)] is written as one byte. *)
Definition own_first (m : meaning) : tuple_source :=
  mktuple [asks_first]
    [mktuple_field [jbytes_line [Property (txt "byteorder") (quoted (txt "BE"))]] m (TInt U8);
     mktuple_field [jbytes_line [Property (txt "length") (quoted (txt "v0"))]] m (TInt U32)].
Theorem C88_shadow_refuted : forall m,
  let decoded data := match handing_tuple_decoder integers nothing_else v_key (own_first m) with
                      | Some d => if struct_compiles d [] then Some (run_struct dec d no_cattr data 0) else None
                      | None => None
                      end in
  let encoded vs := match asking_tuple_encoder integers nothing_else v_key (own_first m) vs with
                    | Some e => if encoder_compiles e [] then Some (run_encoder enc e no_cattr no_fattr vs buf_new) else None
                    | None => None
                    end in
  decoded (hex [2; 1; 2]) = Some (Ok (VList [vi 2; vi 258]) 3) /\ encoded [vi 2; vi 258] = Some (Ok 1 (mkbuf (hex [2]) 1)).
Proof. intros m decoded encoded. split; vm_compute; reflexivity. Qed.

Print Assumptions C88_decoder.
Print Assumptions C88_numbers.
Print Assumptions C88_relay_refuted.
Print Assumptions C88_encoder.
Print Assumptions C88_handed.
Print Assumptions C88_round_trip.
Print Assumptions C88_shadow_refuted.

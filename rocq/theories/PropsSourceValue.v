(** C83, continued: the texts in the derived decoder. *)
From Coq Require Import Ascii String.
From Verif Require Import Base BaseLemmas Ints SpecOps Reader Writer Sugar TextSpec Text AttrParse AttrSpec AttrLemmas EnumTextSpec GenExpr
  GenExprSpec GenExprLemmas PropsExpr PropsAttr PropsEnumText GenDecode GenSpec GenEncode GenEncodeSpec PropsGen PropsGenEncode
  Source SourceSpec SourceLemmas PropsSource GenValue GenValueSpec PropsGenValue Decode Encode Spec NetLemmas PropsContainers WireSpec Schema.
Close Scope string_scope.

(** A decoder made from these texts reads a field if its condition holds, changes the value,
    and turns it down if the check fails. [K]: what happens to the value. *)
Theorem C83_field : forall A others names x m d f ca fa en if_text value_text check_text c,
  let M := text_meaning A others names x m in let before := combine names (ev_fields en) in
  (forall v w, a_op A Differs v w = Some (VBool (negb (val_eqb v w)))  \/ a_op A Differs v w = None) ->
  f_with_decode f = None -> f_skip_decode f = None -> f_from_str f = None ->
  f_if f = option_map (m_condition M) if_text -> f_value_decode f = option_map (m_function M) value_text ->
  f_check f = option_map (m_value M) check_text ->
  match if_text with Some text => condition A others before text = Some c | None => c = true end ->
  exists K,
    dec_field d f ca fa en =
      (_ <- dec_offset (f_offset f) en ;;
       p0 <- get_position ;;
       v <- (if c then d ca fa else ret (VOpt None)) ;;
       _ <- (if f_untake f then set_position p0 else ret tt) ;;
       K v) /\
    forall v v' fails,
      match value_text with Some text => new_value A others before x v text = Some v' | None => v' = v end ->
      match check_text with
      | Some text => check_fails A others before x v' text = Some fails /\ a_name x /\
                     exists e, reads_as BitOr text e /\ ~ mentions e x
      | None => fails = false
      end ->
      K v = if fails then fail InvalidValue else ret v'.
Proof.
  intros A others names x m d f ca fa en it vt ct c M before HN HW HS HF HI HV HC Hc.
  exists (fun v => let v := match f_value_decode f with Some g => g en v | None => v end in
            match f_check f with Some c => if val_eqb v (c en) then ret v else fail InvalidValue | None => ret v end).
  split.
  - unfold dec_field. rewrite HW, HS, HF, HI. destruct it as [text|]; cbn [option_map].
    + unfold M, text_meaning. cbn [m_condition]. fold before. rewrite Hc. reflexivity.
    + subst c. reflexivity.
  - intros v v' fails Hv Hf. cbv zeta. rewrite HV, HC.
    assert (E : match option_map (m_function M) vt with Some g => g en v | None => v end = v').
    { destruct vt as [text|]; [|now subst]. cbn [option_map]. unfold M, text_meaning. cbn [m_function]. fold before. now rewrite Hv. }
    rewrite E. destruct ct as [text|]; cbn [option_map]; [|now subst].
    destruct Hf as (Hf & N & e & R & Hm). unfold M, text_meaning. cbn [m_value]. fold before.
    rewrite (C83_check A others before x v' text e N R) in Hf. rewrite (C66_text val A _ text e (whole _ _ _ R)).
    assert (E2 : eval A (decoder_scope ((x, v') :: before) others) e = eval A (decoder_scope before others) e).
    { apply eval_same. intros y Hy. unfold decoder_scope. cbn [find fst]. destruct (bytes_eqb y x) eqn:B; [|reflexivity].
      apply bytes_eqb_eq in B. subst y. elim Hm. revert Hy. clear. induction e as [|z|e IH f|e IH t|o a IHa b IHb]; cbn; try easy.
      - intros [->|[]]. reflexivity.
      - intros Hy. apply in_app_iff in Hy as [Hy|Hy]; [left|right]; auto. }
    rewrite E2 in Hf. destruct (eval A _ e) as [w|]; [|discriminate].
    destruct (HN v' w) as [D|D]; rewrite D in Hf; [|discriminate]. injection Hf as <-. now destruct (val_eqb v' w).
Qed.

(** ** A struct

[struct Sample {
    flags: u8,
    #[jbytes(value_decode = "len * 4", value_encode = "len / 4")] len: u8,
    #[jbytes(if_expr = "flags & 2 == 2")] extra: Option<u8>,
    #[jbytes(check_value = "flags | 1")] again: u8,
    #[jbytes(length = "len - 6")] body: Vec<u8>,
}] *)
Definition sample_names : list bytes := map txt ["flags"; "len"; "extra"; "again"; "body"]%string.
Definition sample_meaning (m : meaning) (i : nat) : meaning :=
  text_meaning integers nothing_else (firstn i sample_names) (nth i sample_names []) m.
Definition sample (m : meaning) : source :=
  let line l := [jbytes_line (map (fun kt => Property (txt (fst kt)) (quoted (txt (snd kt)))) l)] in
  mksource []
    [mksource_field (txt "flags") [] (sample_meaning m 0) (TInt U8);
     mksource_field (txt "len") (line [("value_decode", "len * 4"); ("value_encode", "len / 4")]%string) (sample_meaning m 1) (TInt U8);
     mksource_field (txt "extra") (line [("if_expr", "flags & 2 == 2")]%string) (sample_meaning m 2) (TOption (TInt U8));
     mksource_field (txt "again") (line [("check_value", "flags | 1")]%string) (sample_meaning m 3) (TInt U8);
     mksource_field (txt "body") (line [("length", "len - 6")]%string) (sample_meaning m 4) TBytes].
Definition sample_fields (m : meaning) : list (fspec * ty) :=
  [(plain, TInt U8);
   (at_value_encode (m_function (sample_meaning m 1) (txt "len / 4"))
      (at_value_decode (m_function (sample_meaning m 1) (txt "len * 4")) plain), TInt U8);
   (at_if (m_condition (sample_meaning m 2) (txt "flags & 2 == 2")) plain, TOption (TInt U8));
   (at_check (m_value (sample_meaning m 3) (txt "flags | 1")) plain, TInt U8);
   (at_length (decoder_number integers nothing_else var_code (firstn 4 sample_names) (txt "len - 6")) plain, TBytes)].
Definition sample_values : list val := [VInt 6; VInt 8; VOpt (Some (VInt 9)); VInt 7; VBytes ["A"; "B"]%byte].
Lemma plain_literal s : forallb (fun c => negb (Byte.eqb c (byte_of 34)) && negb (Byte.eqb c (byte_of 92))) s = true -> string_literal (quoted s) s.
Proof.
  intros H. rewrite forallb_forall in H. split.
  - f_equal. induction s as [|c s IH]; [reflexivity|]. cbn [escaped]. pose proof (H c (or_introl eq_refl)) as Hc.
    apply andb_true_iff in Hc as [Hc _]. apply negb_true_iff in Hc. rewrite Hc. f_equal. apply IH. intros x Hx. apply H. now right.
  - intros Hi. apply H in Hi. apply andb_true_iff in Hi as [_ Hi]. vm_compute in Hi. discriminate.
Qed.
Lemma no_default_line l : ~ (exists a, In a [jbytes_line l] /\ called (t_name a) ["default"%string]).
Proof. intros (a & [<-|[]] & H). vm_compute in H. intuition discriminate. Qed.
Lemma sample_says m : source_says integers nothing_else (sample m) (mkcspec None None) (sample_fields m).
Proof.
  constructor.
  - exists []. split; [right; split; [reflexivity|intros b []]|]. split; [constructor|]. split; [constructor|].
    split; apply undecided; intros e a [].
  - unfold sample, sample_fields. cbn [s_fields map fst snd].
    apply (more_says _ _ _ _ _ [] []); [reflexivity|reflexivity|now right| |constructor|easy|].
    { intros (a & [] & _). }
    eapply (more_says _ _ _ _ _ _ [at_value_decode (m_function (sample_meaning m 1) (txt "len * 4")); at_value_encode (m_function (sample_meaning m 1) (txt "len / 4"))]); [cbn [fold_left]; reflexivity|reflexivity|apply this_line; now left|apply no_default_line| | |].
    { constructor; [|constructor; [|constructor]].
      - refine (says_value_decode _ _ _ (txt "len * 4") _ _); [left; reflexivity|now apply plain_literal].
      - refine (says_value_encode _ _ _ (txt "len / 4") _ _); [left; reflexivity|now apply plain_literal]. }
    { intros k lit [[= <- <-]|[[= <- <-]|[]]]; vm_compute; intuition discriminate. }
    eapply (more_says _ _ _ _ _ _ [at_if (m_condition (sample_meaning m 2) (txt "flags & 2 == 2"))]); [cbn [fold_left]; reflexivity|reflexivity|apply this_line; now left|apply no_default_line| | |].
    { constructor; [|constructor]. refine (says_if _ _ _ (txt "flags & 2 == 2") _ _); [left; reflexivity|now apply plain_literal]. }
    { intros k lit [[= <- <-]|[]]; vm_compute; intuition discriminate. }
    eapply (more_says _ _ _ _ _ _ [at_check (m_value (sample_meaning m 3) (txt "flags | 1"))]); [cbn [fold_left]; reflexivity|reflexivity|apply this_line; now left|apply no_default_line| | |].
    { constructor; [|constructor]. refine (says_check _ _ _ (txt "flags | 1") _ _); [left; reflexivity|now apply plain_literal]. }
    { intros k lit [[= <- <-]|[]]; vm_compute; intuition discriminate. }
    eapply (more_says _ _ _ _ _ _ [_]); [cbn [fold_left]; reflexivity|reflexivity|apply this_line; now left|apply no_default_line| | |constructor].
    { constructor; [|constructor]. apply says_length; [left; reflexivity|]. apply denotes_expression with (s := txt "len - 6"); [now apply plain_literal|].
      split; [intros [_ H]; apply H; reflexivity|discriminate]. }
    { intros k lit [[= <- <-]|[]]; vm_compute; intuition discriminate. }
Qed.
Lemma sample_writable m : source_writable integers nothing_else (sample m) sample_values.
Proof.
  assert (Q : forall s s', no_quotes s -> string_literal (quoted s) s' -> s' = s).
  { intros s s' H [E _]. unfold quoted in E. apply app_inv_head in E. apply app_inv_tail in E. subst s.
    induction s' as [|c r IH]; [reflexivity|]. cbn [escaped] in *. destruct (Byte.eqb c (byte_of 34)) eqn:X.
    - apply Byte.byte_dec_bl in X. subst c. elim H. right. now left.
    - f_equal. apply IH. intros Hi. apply H. now right. }
  intros i f l Hi Hl.
  destruct i as [|[|[|[|[|i]]]]]; cbn [sample s_fields nth_error map fst snd] in Hi; try (destruct i; discriminate); injection Hi as <-; cbn [s_lines] in Hl;
    first [apply no_line in Hl | apply one_line in Hl]; subst l.
  - constructor.
  - constructor; [|constructor; [|constructor]]; intros s H; (split; [intros K|intros K _]; vm_compute in K; intuition discriminate).
  - constructor; [|constructor]; intros s H; (split; [intros K|intros K _]; vm_compute in K; intuition discriminate).
  - constructor; [|constructor]; intros s H; (split; [intros K|intros K _]; vm_compute in K; intuition discriminate).
  - constructor; [|constructor]. intros s H. apply Q in H; [|vm_compute; intuition discriminate]. subst s.
    split; [|intros K; vm_compute in K; intuition discriminate]. intros _ _. split.
    + eexists (txt "len"), _. split; [reflexivity|]. split; [right; now left|easy].
    + exists 2%Z, (EOp Minus (EName (txt "len")) (ENum 6)), (VInt 2). split; [|split; reflexivity].
      apply (spaced (txt "len") "-" (txt "6") Minus Sum Sum Product); [constructor| |].
      * tight. apply ra_name. a_word.
      * tight. apply ra_number. repeat split; try discriminate; repeat constructor; discriminate.
Qed.
(** [Sample { flags: 6, len: 8, extra: Some(9), again: 7, body: b"AB" }] *)
Example C83_case : forall m, exists d e,
  derived_decoder integers nothing_else (sample m) = Some d /\ derived_encoder integers nothing_else (sample m) sample_values = Some e /\
  struct_compiles d [] = true /\ encoder_compiles e [] = true /\
  let w := ["006"; "002"; "009"; "007"; "A"; "B"]%byte in
  (exists n pos, run_encoder enc e no_cattr no_fattr sample_values buf_new = Ok n (mkbuf w pos)) /\
  run_struct dec d no_cattr (w ++ ["255"%byte]) 0 = Ok (VList sample_values) 6.
Proof.
  intros m. eapply (C76_round_trip integers nothing_else (sample m) (mkcspec None None) (sample_fields m) sample_values).
  - exact (sample_says m).
  - cbn. repeat constructor; cbn; intuition discriminate.
  - intros x Hx. cbn in Hx. destruct Hx as [<-|[<-|[<-|[<-|[<-|[]]]]]].
    all: split; [cbn; intuition discriminate|eexists _, _; split; [reflexivity|cbv; intuition discriminate]].
  - reflexivity.
  - split; [reflexivity|]. split; [cbn; intuition discriminate|reflexivity].
  - exact (sample_writable m).
  - unfold sample_fields. well.
  - vm_compute. reflexivity.
  - vm_compute. reflexivity.
  - vm_compute. reflexivity.
Qed.
(** Another flag and another check: the third field is not there, and 6 is turned down. *)
Example C83_field_case : forall m, let t := TStruct true (mkcspec None None) (sample_fields m) in
  dec t no_cattr no_fattr ["004"; "002"; "005"; "A"; "B"]%byte 0 = Ok (VList [VInt 4; VInt 8; VOpt None; VInt 5; VBytes ["A"; "B"]%byte]) 5 /\
  (exists e p, dec t no_cattr no_fattr ["004"; "002"; "006"; "A"; "B"]%byte 0 = Err e p /\ e_kind e = InvalidValue).
Proof. intros m. split; [vm_compute; reflexivity|]. eexists _, _. split; vm_compute; reflexivity. Qed.
Print Assumptions C83_field.

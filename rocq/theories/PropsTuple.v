(** C79: from the text of a tuple struct to its bytes. *)
From Coq Require Import Ascii String.
From Verif Require Import Base BaseLemmas Ints SpecOps Reader Writer Sugar TextSpec Text AttrParse AttrSpec AttrLemmas EnumTextSpec GenExpr
  GenExprSpec GenExprLemmas PropsExpr PropsAttr PropsEnumText GenDecode GenSpec GenEncode GenEncodeSpec PropsGen PropsGenEncode
  Source SourceSpec SourceLemmas PropsSource TupleSource TupleSpec Decode Encode Spec NetLemmas PropsContainers WireSpec Schema.
Close Scope string_scope.

(** ** Expressions *)
Lemma self_first opened ts t e : parse_all (before_text opened ++ (self_tokens ++ ts) ++ after_text opened t) = Some e ->
  exists d a f r, ts = d :: r /\ leaf d = Some (a, f) /\ graft (self_dot f) (self_dot f) e e /\ exists m, names e = m ++ GenExprSpec.bare r.
Proof.
  intros H. pose proof (core_names _ _ _ _ H) as HN. apply parse_all_some in H as (k & _ & E).
  destruct ts as [|d ts].
  { destruct k as [|[|[|k]]]; try discriminate; destruct opened; cbn in E; discriminate. }
  destruct (leaf d) as [[a f]|] eqn:Hd.
  2:{ destruct k as [|[|[|k]]]; try discriminate; destruct d; try discriminate Hd; destruct opened; cbn in E; try discriminate; now destruct ts. }
  exists d, a, f, ts. split; [reflexivity|]. split; [exact Hd|]. split.
  - assert (X : forall k l u r e, extend k l (self_dot f) u = Some (e, r) -> graft (self_dot f) (self_dot f) e e).
    { intros k' l u r e' H. destruct (extend_graft _ _ _ (self_dot f) _ _ _ H) as (e'' & H1 & H2). rewrite H in H1. now injection H1 as <-. }
    destruct opened; cbn [before_text app self_tokens] in E.
    + destruct k as [|[|[|k]]]; try discriminate.
      assert (E' : match extend k 0 (self_dot f) (ts ++ after_text true t) with
                   | Some (e, TClose :: r') => extend (S (S k)) 0 e r' | _ => None end = Some (e, [])).
      { destruct d; try discriminate Hd; injection Hd as <- <-; exact E. }
      destruct (extend k 0 _ _) as [[e1 r1]|] eqn:E1; [|discriminate]. apply X in E1. destruct r1 as [|[] r1]; try discriminate.
      destruct (extend_graft _ _ _ e1 _ _ _ E') as (e2 & H1 & H2). rewrite E' in H1. injection H1 as <-. eapply graft_trans; eassumption.
    + destruct k as [|[|k]]; try discriminate.
      assert (E' : extend k 0 (self_dot f) (ts ++ after_text false t) = Some (e, [])).
      { destruct d; try discriminate Hd; injection Hd as <- <-; exact E. }
      now apply X in E'.
  - rewrite HN. destruct d; try discriminate Hd; cbn [GenExprSpec.bare self_tokens app]; exists [txt "self"]; reflexivity.
Qed.
Lemma one_value A others vs fields opened ts t e w : (forall x, In x fields -> x <> txt "self" /\ others x = None) ->
  parse_all (before_text opened ++ (self_tokens ++ ts) ++ after_text opened t) = Some e ->
  eval (with_tuple A) (encoder_scope (Self_tuple vs) (fun x => option_map Plain (others x))) e = Some w ->
  exists n r, ts = TNum n :: r /\ (forall y, In y (GenExprSpec.bare r) -> ~ In y fields) /\ n < N.of_nat (length vs).
Proof.
  intros HF HP HV. destruct (self_first _ _ _ _ HP) as (d & a & f & r & -> & Hd & HG & m & HN).
  set (sc := encoder_scope _ _) in *.
  assert (HS : eval (with_tuple A) sc (self_dot f) <> None).
  { intros X. now rewrite (graft_missing _ _ _ _ _ _ HG X) in HV. }
  destruct d as [x|n| | | | | |]; try discriminate Hd; injection Hd as <- <-.
  { elim HS. reflexivity. }
  exists n, r. split; [reflexivity|]. split.
  - intros y Hy Hf. destruct (HF y Hf) as [H1 H2]. rewrite (eval_missing _ sc e y) in HV; [discriminate| |].
    + rewrite HN. apply in_app_iff. now right.
    + unfold sc, encoder_scope. destruct (bytes_eqb y (txt "self")) eqn:E; [apply bytes_eqb_eq in E; contradiction|]. now rewrite H2.
  - change (option_map Plain (nth_error vs (N.to_nat n)) <> None) in HS.
    destruct (nth_error vs (N.to_nat n)) eqn:E; [|now elim HS]. assert (N.to_nat n < length vs)%nat by (apply nth_error_Some; congruence). lia.
Qed.

(** In the encoder of a tuple struct an expression compiles only if it begins with a
    number, and then that is taken for a field; one that mentions a field never does. *)
Theorem C79_expressions : forall A others s vs code text w, In code [var_code; GenExpr.order_code] ->
  (forall x, In x (tuple_names s) -> others x = None) ->
  tuple_value A others code vs text = Some w ->
  exists n, number_first (tuple_names s) text n /\ n < N.of_nat (length vs).
Proof.
  intros A others s vs code text w HC HO HV.
  assert (HF : forall x, In x (tuple_names s) -> x <> txt "self" /\ others x = None).
  { intros x Hx. split; [|now apply HO]. apply in_map_iff in Hx as (i & <- & _). discriminate. }
  unfold tuple_value, code_value in HV.
  assert (HL : exists opened t, lex [] (code true text) =
    match lex [] text with Some ts => Some (before_text opened ++ (self_tokens ++ ts) ++ after_text opened t) | None => None end).
  { destruct HC as [<-|[<-|[]]]; [exists true, (txt "usize"); apply lex_var_code|exists false, (txt "isize"); apply lex_order_code]. }
  destruct HL as (opened & t & HL). rewrite HL in HV. destruct (lex [] text) as [ts|] eqn:EL; [|discriminate].
  destruct (parse_all _) as [e|] eqn:EP; [|discriminate].
  destruct (one_value A others vs (tuple_names s) opened ts t e w HF EP HV) as (n & r & -> & Hr & Hn).
  exists n. split; [|exact Hn]. exists r. auto.
Qed.
(** [length = "v0"] in [struct T(u8, #[jbytes(length = "v0")] Vec<u8>)]; [offset = "0 + 1"] is
    taken for the first field, and 1. *)
Example C79_expressions_case : forall vs,
  tuple_value integers nothing_else var_code vs (txt "v0") = None /\
  tuple_value integers nothing_else var_code [VInt 5; VInt 7] (txt "0 + 1") = Some (Plain (VInt 6)).
Proof. now split. Qed.

(** ** Decoder *)
Lemma called_names name i fs : map s_name (called_by name i fs) = map name (seq i (length fs)).
Proof. revert i. induction fs as [|f fs IH]; intros i; [reflexivity|]. cbn. now rewrite IH. Qed.
Theorem C79_decoder : forall A others s c l, tuple_says A others s c l ->
  exists d fs, tuple_decoder A others s = Some d /\ d_fields d = Some fs /\ d_named d = false /\
    container_of d = c /\ nameless fs = l /\ map n_name fs = tuple_names s.
Proof.
  intros A others s c l [HC HF]. unfold tuple_decoder, derived_tuple.
  destruct (container_read _ _ HC) as (ca & -> & EO & EC).
  destruct (fields_read (decoder_number A others) [] _ l HF) as (fs & -> & EN & ET & _). rewrite EO.
  eexists _, fs. split; [reflexivity|]. repeat split; cbn [d_fields d_named]; auto. rewrite ET. apply called_names.
Qed.

(** ** Encoder

    The field it writes at place [i] is [self.i], in decimal. *)
Lemma read_names numbers : forall fs before out, read_fields numbers before fs = Some out -> map n_name out = map s_name fs.
Proof.
  induction fs as [|f fs IH]; intros before out H; cbn [read_fields] in H; [now injection H as <-|].
  destruct (attributes_of (s_lines f)) as [fa|]; [|discriminate]. destruct (read_fields _ _ fs) as [r|] eqn:E; [|discriminate].
  injection H as <-. cbn [map n_name]. f_equal. eapply IH, E.
Qed.
Theorem C79_members : forall A others s vs e fs, tuple_encoder A others s vs = Some e -> d_fields e = Some fs ->
  N.of_nat (length (u_fields s)) < 2 ^ 64 ->
  length fs = length (u_fields s) /\ forall i f, nth_error fs i = Some f -> decimal_text (n_name f) (N.of_nat i).
Proof.
  intros A others s vs e fs H F B. unfold tuple_encoder, derived_tuple in H. destruct (container_attributes_of _) as [ca|]; [|discriminate].
  destruct (read_fields _ _ _) as [out|] eqn:R; [|discriminate]. destruct (container_other _); [discriminate|]. injection H as <-.
  cbn [d_fields] in F. injection F as ->. apply read_names in R. rewrite called_names in R.
  assert (L : length fs = length (u_fields s)).
  { rewrite <- (map_length n_name), R, map_length. apply seq_length. }
  split; [exact L|]. intros i f Hi.
  assert (X : nth_error (map n_name fs) i = Some (n_name f)) by (rewrite nth_error_map, Hi; reflexivity).
  rewrite R, nth_error_map in X. assert (Y : (i < length (u_fields s))%nat) by (rewrite <- L; apply nth_error_Some; congruence).
  rewrite (nth_error_nth' _ 0%nat) in X by now rewrite seq_length. rewrite seq_nth in X by exact Y. injection X as <-.
  apply show_usize_text. cbn [Nat.add]. lia.
Qed.

(** ** Round trip *)
Lemma tuple_written A others vs en : forall fs i before before' l, field_says A others before (called_by tuple_name i fs) l ->
  (forall f l, In f fs -> first_line ["jbytes"%string] (u_lines f) l -> Forall literal_entry l) ->
  exists out, read_fields (fun code _ => tuple_number A others code vs) before' (called_by index_name i fs) = Some out /\
    Forall2 (fun f g => snd f = snd g) (nameless out) l /\
    (forall f, In f out -> f_value_encode (n_spec f) = None) /\
    (forall i f g, nth_error (nameless out) i = Some f -> nth_error l i = Some g -> alike (en i) (fst f) (fst g)).
Proof.
  induction fs as [|f fs IH] in en |- *; intros i before before' l H HL; inversion H as [|? ? ? l0 gs more L D S V H' E1 E2 E3]; subst.
  - exists []. split; [reflexivity|]. split; [constructor|]. split; [easy|]. intros [|j]; discriminate.
  - destruct (IH (fun j => en (Datatypes.S j)) _ _ (before' ++ [index_name i]) _ H') as (out & R & ET & EV & EA).
    { intros f' l' Hf. apply HL. now right. }
    cbn [s_lines s_meaning s_type] in *. pose proof (HL f l0 (or_introl eq_refl) L) as HW.
    set (N := decoder_number A others) in *. set (T := fun code => tuple_number A others code vs) in *.
    destruct (entries_alike (N var_code before) (N GenExpr.order_code before) (T var_code) (T GenExpr.order_code) (u_meaning f) (en 0%nat) l0 gs) as (gs' & S' & G).
    { eapply Forall_impl; [|exact HW]. intros [j|k lit] W; [exact Logic.I|]. intros s Q. destruct W as [_ W]. destruct (W s Q) as [W1 W2]. split.
      - intros K X. now elim (W1 K).
      - intros K X. elim X. exact (W2 K). }
    { exact S. }
    destruct (C50_all _ _ _ S') as (fa & P & Q). cbn [called_by read_fields s_lines s_name s_meaning s_type].
    rewrite (first_line_parsed _ _ L D), P, R. unfold T in Q. cbv beta in Q. rewrite Q.
    eexists. split; [reflexivity|]. unfold nameless in *. cbn [map n_spec n_type n_name]. split; [constructor; [reflexivity|exact ET]|]. split.
    + intros f' [<-|Hf]; [|now apply EV]. cbn [n_spec]. clear - S' HW. assert (X : f_value_encode plain = None) by reflexivity. revert X. generalize plain.
      induction S' as [|e g l gs S _ IH]; intros p X; [exact X|]. cbn [fold_left]. inversion HW as [|? ? W HW']; subst. apply IH; [exact HW'|].
      destruct S; try exact X. destruct W as [W _]. elim W. assumption.
    + intros [|j] f' g' Hf Hg; cbn [nth_error] in Hf, Hg.
      * injection Hf as <-. injection Hg as <-. cbn [fst]. apply alike_sym, G, alike_refl.
      * now apply EA.
Qed.
Lemma first_used A others s l : field_says A others [] (called_by tuple_name 0 (u_fields s)) l -> first_attributed s ->
  match l with [] => True | (f, _) :: _ => f_use f = true end.
Proof.
  unfold first_attributed. destruct (u_fields s) as [|f r]; intros H HF; inversion H as [|? ? ? l0 gs more L D S V H' E1 E2 E3]; subst; [exact Logic.I|].
  destruct HF as (e & l & HF). cbn [s_lines] in *.
  assert (E : l0 = e :: l).
  { destruct L as [(b & a & m & E & T & <- & N)|[-> N]], HF as [(b' & a' & m' & E' & T' & EE & N')|[? N']]; try discriminate.
    - rewrite E in E'. clear - E' T T' N N' EE. revert b' E' N'. induction b as [|x b IH]; intros [|y b'] E N''; cbn [app] in E; injection E as -> E.
      + exact EE.
      + elim (N'' y); [now left|exact T].
      + elim (N a'); [now left|exact T'].
      + apply (IH (fun z Hz => N z (or_intror Hz)) b' E). intros z Hz. apply N''. now right.
    - elim (N a'); [|exact T']. rewrite E'. apply in_app_iff. right. now left. }
  subst l0. inversion S as [|? g ? gs' S0 S1]; subst. cbn [fold_left].
  assert (X : f_use (g plain) = true).
  { destruct S0; reflexivity. }
  clear - X S1. revert X. generalize (g plain). clear g. induction S1 as [|e' g l gs S _ IH]; intros p X; [exact X|]. cbn [fold_left]. apply IH.
  destruct S; reflexivity || exact X.
Qed.

(** The decoder and the encoder derived for a tuple struct whose attributes mention no
    field compile; what the one writes for a value is what the text says, and the other
    reads it back. *)
Theorem C79_round_trip : forall A others s c l vs w rest, let t := TStruct false c l in
  tuple_says A others s c l -> literals_only s -> first_attributed s -> N.of_nat (length (u_fields s)) < 2 ^ 64 ->
  length vs = length (u_fields s) ->
  well_formed t -> wire t no_cattr no_fattr (VList vs) = Some w -> fits t no_cattr no_fattr (VList vs) rest = true ->
  allocatable (w ++ rest) ->
  exists d e, tuple_decoder A others s = Some d /\ tuple_encoder A others s vs = Some e /\
    struct_compiles d [] = true /\ encoder_compiles e [] = true /\
    (exists n pos, run_encoder enc e no_cattr no_fattr vs buf_new = Ok n (mkbuf w pos)) /\
    run_struct dec d no_cattr (w ++ rest) 0 = Ok (VList vs) (size w).
Proof.
  intros A others s c l vs w rest t [HC HF] HLI HFA HB HL WF WI FI AL.
  destruct (container_read _ _ HC) as (ca & EC & EO & ECC).
  destruct (fields_read (decoder_number A others) [] _ l HF) as (fs & ER & ET & EN & EV).
  destruct (tuple_written A others vs (fun i => mkenv (firstn i vs) []) (u_fields s) 0%nat [] [] l HF HLI) as (gs & ER' & ET' & EVE & EA).
  set (o := if container_used (u_container s) then Some (container_spec ca) else None) in *.
  rewrite called_names in EN.
  assert (LF : length vs = length fs).
  { rewrite HL, <- (seq_length (length (u_fields s)) 0), <- (map_length tuple_name), <- EN. apply map_length. }
  assert (LG : length vs = length gs).
  { rewrite LF, <- (map_length (fun f => (n_spec f, n_type f)) fs), <- (map_length (fun f => (n_spec f, n_type f)) gs).
    change (length (nameless fs) = length (nameless gs)). rewrite ET. symmetry. clear - ET'.
    induction ET' as [|? ? ? ? _ _ IH]; [reflexivity|]. cbn. now rewrite IH. }
  assert (NU : numbered fs).
  { intros i f Hi. assert (X : nth_error (map n_name fs) i = Some (n_name f)) by (rewrite nth_error_map, Hi; reflexivity).
    rewrite EN, nth_error_map in X. destruct (nth_error (seq 0 _) i) as [j|] eqn:J; [|discriminate]. injection X as <-. f_equal.
    assert (Y : (i < length (seq 0 (length (u_fields s))))%nat) by (apply nth_error_Some; congruence).
    apply (nth_error_nth _ _ 0%nat) in J. rewrite seq_length in Y. rewrite seq_nth in J by exact Y. exact (eq_sym J). }
  destruct (C65_numbers fs NU) as [D R]; [rewrite <- LF, HL; exact HB|].
  destruct (C65_compiles (mkdecl false o (Some fs)) fs [] eq_refl D R) as [KD P].
  { intros _. exact EV. }
  { right. pose proof (first_used _ _ _ _ HF HFA) as U. rewrite <- ET in U. destruct fs; [exact Logic.I|exact U]. }
  assert (KE : forall hs, (forall f, In f hs -> f_value_encode (n_spec f) = None) -> encoder_compiles (mkdecl false o (Some hs)) [] = true).
  { intros hs Hh. apply (C69_compiles (mkdecl false o (Some hs)) hs [] eq_refl). intros f Hf (_ & _ & X & _). now elim X; apply Hh. }
  assert (VF : forall f, In f fs -> f_value_encode (n_spec f) = None).
  { intros f Hf. apply In_nth_error in Hf as (i & Hi).
    assert (Hi' : nth_error (nameless fs) i = Some (n_spec f, n_type f)) by (unfold nameless; rewrite nth_error_map, Hi; reflexivity).
    destruct (nth_error gs i) as [g|] eqn:Hg.
    2:{ apply nth_error_None in Hg. assert (i < length fs)%nat by (apply nth_error_Some; congruence). lia. }
    assert (Hg' : nth_error (nameless gs) i = Some (n_spec g, n_type g)) by (unfold nameless; rewrite nth_error_map, Hg; reflexivity).
    rewrite ET in Hi'. pose proof (al_ve _ _ _ (EA i _ _ Hg' Hi')) as X. cbn [fst] in X. rewrite <- X. apply EVE. now apply nth_error_In in Hg. }
  assert (T : TStruct (d_named (mkdecl false o (Some fs))) (container_of (mkdecl false o (Some fs))) (nameless fs) = t).
  { unfold t. cbn [d_named]. rewrite ET. unfold container_of. cbn [d_container]. now rewrite ECC. }
  destruct (C69_round_trip (mkdecl false o (Some fs)) fs vs w rest eq_refl (KE fs VF) KD P LF) as [(n & pos & E) DD];
    try (rewrite T; assumption); [exact AL|].
  exists (mkdecl false o (Some fs)), (mkdecl false o (Some gs)).
  split; [unfold tuple_decoder, derived_tuple; now rewrite EC, ER, EO|].
  split; [unfold tuple_encoder, derived_tuple; now rewrite EC, ER', EO|].
  split; [exact KD|]. split; [exact (KE gs EVE)|]. split; [|exact DD]. exists n, pos. rewrite <- E.
  rewrite (C69_struct (mkdecl false o (Some fs)) fs no_cattr no_fattr vs _ eq_refl (KE fs VF) LF).
  rewrite (C69_struct (mkdecl false o (Some gs)) gs no_cattr no_fattr vs _ eq_refl (KE gs EVE) LG). cbn [d_named].
  unfold container_of. cbn [d_container]. cbn [enc]. rewrite ET. apply alike_fields; [exact ET'|exact EA].
Qed.

(** [#[jbytes(byteorder = "LE")] struct Triple(#[jbytes(byteorder = "BE")] u16,
    #[jbytes(offset = 1)] u16, u8)] *)
Definition triple (m : meaning) : tuple_source :=
  mktuple [jbytes_line [Property (txt "byteorder") (quoted (txt "LE"))]]
    [mktuple_field [jbytes_line [Property (txt "byteorder") (quoted (txt "BE"))]] m (TInt U16);
     mktuple_field [jbytes_line [Property (txt "offset") (txt "1")]] m (TInt U16);
     mktuple_field [] m (TInt U8)].
Definition triple_fields : list (fspec * ty) :=
  [(at_order (OConst Be) plain, TInt U16); (at_offset (const 1) plain, TInt U16); (plain, TInt U8)].
Lemma triple_says m : tuple_says integers nothing_else (triple m) (mkcspec (Some Le) None) triple_fields.
Proof.
  assert (N1 : numeral (txt "1") 1).
  { left. change (txt "1") with [byte_of (48 + 1)]. constructor; [|lia]. left. left. split; [lia|reflexivity]. }
  assert (ND : forall l, ~ (exists a, In a [jbytes_line l] /\ called (t_name a) ["default"%string])).
  { intros l (a & [<-|[]] & H). vm_compute in H. intuition discriminate. }
  constructor.
  - eexists. split; [apply this_line; now left|]. split; [|split; [|split]].
    + constructor; [|constructor]. left. exists Le. apply order_little; left; reflexivity.
    + constructor; [|constructor]. vm_compute. intuition discriminate.
    + apply (decided_by about_order [] _ []); [|easy]. apply order_little; left; reflexivity.
    + apply undecided. intros e a [<-|[]] H. inversion H as [|? ? ? K]; subst. vm_compute in K. intuition discriminate.
  - unfold triple, triple_fields. cbn [u_fields called_by u_lines u_meaning u_type].
    eapply (more_says _ _ _ _ _ _ [_]); [cbn [fold_left]; reflexivity|reflexivity|apply this_line; now left|apply ND| | |].
    { constructor; [|constructor]. apply says_big with (s := txt "BE"); [left; reflexivity| |left; reflexivity]. reflexivity. }
    { intros k lit [[= <- <-]|[]]. vm_compute. intuition discriminate. }
    eapply (more_says _ _ _ _ _ _ [_]); [cbn [fold_left]; reflexivity|reflexivity|apply this_line; now left|apply ND| | |].
    { constructor; [|constructor]. apply says_offset; [left; reflexivity|].
      apply denotes_number with (s := txt "1") (n := 1); [now left|exact N1|reflexivity]. }
    { intros k lit [[= <- <-]|[]]. vm_compute. intuition discriminate. }
    apply (more_says _ _ _ _ _ [] []); [reflexivity|reflexivity|now right| |constructor|easy|constructor].
    intros (a & [] & _).
Qed.
Lemma triple_literals m : literals_only (triple m).
Proof.
  assert (Q : forall s s', no_quotes s -> string_literal (quoted s) s' -> s' = s).
  { intros s s' H [E _]. unfold quoted in E. apply app_inv_head in E. apply app_inv_tail in E. subst s.
    induction s' as [|c r IH]; [reflexivity|]. cbn [escaped] in *. destruct (Byte.eqb c (byte_of 34)) eqn:X.
    - apply Byte.byte_dec_bl in X. subst c. elim H. right. now left.
    - f_equal. apply IH. intros Hi. apply H. now right. }
  intros f l [<-|[<-|[<-|[]]]] H; cbn [u_lines] in H; first [apply no_line in H | apply one_line in H]; subst l.
  - constructor; [|constructor]. split; [vm_compute; intuition discriminate|]. intros s H.
    apply Q in H; [|vm_compute; intuition discriminate]. subst s.
    split; [intros K; vm_compute in K; intuition discriminate|]. intros _. vm_compute. auto.
  - constructor; [|constructor]. split; [vm_compute; intuition discriminate|]. intros s [H _]. discriminate H.
  - constructor.
Qed.
Example C79_case : forall m, exists d e,
  tuple_decoder integers nothing_else (triple m) = Some d /\
  tuple_encoder integers nothing_else (triple m) [VInt 0x102; VInt 0x304; VInt 5] = Some e /\
  struct_compiles d [] = true /\ encoder_compiles e [] = true /\
  let w := ["001"; "002"; "000"; "004"; "003"; "005"]%byte in
  (exists n pos, run_encoder enc e no_cattr no_fattr [VInt 0x102; VInt 0x304; VInt 5] buf_new = Ok n (mkbuf w pos)) /\
  run_struct dec d no_cattr (w ++ ["255"%byte]) 0 = Ok (VList [VInt 0x102; VInt 0x304; VInt 5]) 6.
Proof.
  intros m. eapply (C79_round_trip integers nothing_else (triple m) (mkcspec (Some Le) None) triple_fields).
  - exact (triple_says m).
  - exact (triple_literals m).
  - eexists _, _. apply this_line. now left.
  - reflexivity.
  - reflexivity.
  - unfold triple_fields. well.
  - vm_compute. reflexivity.
  - vm_compute. reflexivity.
  - vm_compute. reflexivity.
Qed.

(** [struct Shifted(#[jbytes(byteorder = "BE")] u8, #[jbytes(offset = "0 + 1")] u8)]: the
    decoder skips one byte, the encoder writes as many as the first field says, and one
    more. [Shifted(5, 7)] does not come back. *)
Definition shifted (m : meaning) : tuple_source :=
  mktuple []
    [mktuple_field [jbytes_line [Property (txt "byteorder") (quoted (txt "BE"))]] m (TInt U8);
     mktuple_field [jbytes_line [Property (txt "offset") (quoted (txt "0 + 1"))]] m (TInt U8)].
Theorem C79_number_refuted : forall m, exists d e,
  tuple_decoder integers nothing_else (shifted m) = Some d /\
  tuple_encoder integers nothing_else (shifted m) [VInt 5; VInt 7] = Some e /\
  struct_compiles d [] = true /\ encoder_compiles e [] = true /\
  let w := ["005"; "000"; "000"; "000"; "000"; "000"; "000"; "007"]%byte in
  run_encoder enc e no_cattr no_fattr [VInt 5; VInt 7] buf_new = Ok 2 (mkbuf w 8) /\
  run_struct dec d no_cattr w 0 = Ok (VList [VInt 5; VInt 0]) 3 /\
  run_struct dec d no_cattr ["005"; "000"; "007"]%byte 0 = Ok (VList [VInt 5; VInt 7]) 3.
Proof.
  intros m. eexists _, _. split; [reflexivity|]. split; [reflexivity|].
  split; [vm_compute; reflexivity|]. split; [vm_compute; reflexivity|]. cbv zeta.
  split; [vm_compute; reflexivity|]. split; vm_compute; reflexivity.
Qed.
(** [struct Body(#[jbytes(byteorder = "BE")] u8, #[jbytes(length = "v0")] Vec<u8>)] can be
    decoded; [#[derive(ByteEncode)]] makes [self.v0] of the length, which is nothing. *)
Definition body (m : meaning) : tuple_source :=
  mktuple []
    [mktuple_field [jbytes_line [Property (txt "byteorder") (quoted (txt "BE"))]] m (TInt U8);
     mktuple_field [jbytes_line [Property (txt "length") (quoted (txt "v0"))]] m TBytes].
Theorem C79_name_refuted : forall m, exists d,
  tuple_decoder integers nothing_else (body m) = Some d /\ struct_compiles d [] = true /\
  run_struct dec d no_cattr ["002"; "A"; "B"; "C"]%byte 0 = Ok (VList [VInt 2; VBytes ["A"; "B"]%byte]) 3 /\
  forall vs, tuple_value integers nothing_else var_code vs (txt "v0") = None.
Proof.
  intros m. eexists. split; [reflexivity|]. split; [vm_compute; reflexivity|]. split; [vm_compute; reflexivity|].
  intros vs. reflexivity.
Qed.

Print Assumptions C79_expressions.
Print Assumptions C79_decoder.
Print Assumptions C79_round_trip.
Print Assumptions C79_members.
Print Assumptions C79_number_refuted.
Print Assumptions C79_name_refuted.

(** C76: from the text of a struct to its bytes. *)
From Coq Require Import Ascii String.
From Verif Require Import Base BaseLemmas Ints SpecOps Reader Writer Sugar TextSpec Text AttrParse AttrSpec AttrLemmas EnumTextSpec GenExpr
  GenExprSpec GenExprLemmas PropsExpr PropsAttr PropsEnumText GenDecode GenSpec GenEncode GenEncodeSpec PropsGen PropsGenEncode
  Source SourceSpec SourceLemmas Decode Encode Spec NetLemmas PropsContainers WireSpec Schema.
Close Scope string_scope.

(** An expression has the number it stands for: in the decoder, and, if it begins with a
    field and mentions no other, in the encoder. *)
Theorem C76_numbers : forall A others names vs text i vars z, let before := combine (firstn i names) (firstn i vs) in
  number_is A others before text z ->
  decoder_number A others var_code (firstn i names) text (mkenv (firstn i vs) vars) = z /\
  (NoDup names -> length vs = length names -> apart (combine names vs) others -> one_field_first names text ->
   forall en, encoder_number A others var_code names vs text en = z).
Proof. exact numbers_agree. Qed.
Theorem C76_orders : forall A others names vs text i vars z, let before := combine (firstn i names) (firstn i vs) in
  order_is A others before text z ->
  decoder_number A others GenExpr.order_code (firstn i names) text (mkenv (firstn i vs) vars) = z /\
  (NoDup names -> length vs = length names -> apart (combine names vs) others -> one_field_first names text ->
   forall en, encoder_number A others GenExpr.order_code names vs text en = z).
Proof. exact orders_agree. Qed.

(** The decoder is derived for the type the text describes. *)
Theorem C76_decoder : forall A others s c l, source_says A others s c l ->
  exists d fs, derived_decoder A others s = Some d /\ d_fields d = Some fs /\ d_named d = true /\
    container_of d = c /\ nameless fs = l /\ map n_name fs = map s_name (s_fields s).
Proof.
  intros A others s c l [HC HF]. unfold derived_decoder, derived.
  destruct (container_read _ _ HC) as (ca & -> & EO & EC).
  destruct (fields_read (decoder_number A others) [] (s_fields s) l HF) as (fs & -> & EN & ET & _). rewrite EO.
  eexists _, fs. split; [reflexivity|]. repeat split; cbn [d_fields d_named]; auto.
Qed.

(** The decoder and the encoder derived for a struct, each with its own code for the
    expressions, compile; what the one writes for a value is what the text says, and the
    other reads it back. *)
Theorem C76_round_trip : forall A others s c l vs w rest,
  let t := TStruct true c l in let names := map s_name (s_fields s) in
  source_says A others s c l -> NoDup names -> (forall x, In x names -> own_name x) ->
  length vs = length names -> apart (combine names vs) others -> source_writable A others s vs ->
  well_formed t -> wire t no_cattr no_fattr (VList vs) = Some w -> fits t no_cattr no_fattr (VList vs) rest = true ->
  allocatable (w ++ rest) ->
  exists d e, derived_decoder A others s = Some d /\ derived_encoder A others s vs = Some e /\
    struct_compiles d [] = true /\ encoder_compiles e [] = true /\
    (exists n pos, run_encoder enc e no_cattr no_fattr vs buf_new = Ok n (mkbuf w pos)) /\
    run_struct dec d no_cattr (w ++ rest) 0 = Ok (VList vs) (size w).
Proof.
  intros A others s c l vs w rest t names HS HD HO HL HA HW WF WI FI AL.
  pose proof HS as [HC HF].
  destruct (container_read _ _ HC) as (ca & EC & EO & ECC).
  destruct (fields_read (decoder_number A others) [] (s_fields s) l HF) as (fs & ER & ET & EN & EV).
  destruct (fields_written A others vs [] names HD HL HA [] (s_fields s) l HF eq_refl) as (gs & ER' & EN' & ET' & EA).
  { intros i f l' Hi Hl. exact (HW i f l' Hi Hl). }
  cbn [length Nat.add] in EA.
  set (o := if container_used (s_container s) then Some (container_spec ca) else None) in *.
  exists (mkdecl true o (Some fs)), (mkdecl true o (Some gs)).
  assert (R : forall x, In x names -> ~ In x reserved).
  { intros x Hx Hr. apply (proj1 (HO x Hx)). revert Hr. apply incl_map. intros y. cbn. tauto. }
  assert (NF : forall f, In f fs -> In (n_name f) names) by (intros f Hf; unfold names; rewrite <- EN; now apply in_map).
  assert (NG : forall f, In f gs -> In (n_name f) names) by (intros f Hf; unfold names; rewrite <- EN'; now apply in_map).
  destruct (C65_compiles (mkdecl true o (Some fs)) fs [] eq_refl) as [KD P].
  { rewrite EN. exact HD. } { intros f Hf. apply R, NF, Hf. } { intros _. exact EV. } { now left. }
  assert (KE : forall hs, (forall f, In f hs -> In (n_name f) names) -> encoder_compiles (mkdecl true o (Some hs)) [] = true).
  { intros hs Hh. apply (C69_compiles (mkdecl true o (Some hs)) hs [] eq_refl). intros f Hf _. destruct (HO _ (Hh f Hf)) as [N F].
    split; [|split; [|exact F]].
    - intros Hr. apply N. revert Hr. apply incl_map. intros y. cbn. tauto.
    - intros E. apply N. rewrite E. cbn. tauto. }
  assert (LF : length vs = length fs) by (rewrite HL; unfold names; rewrite <- EN; apply map_length).
  assert (LG : length vs = length gs) by (rewrite HL; unfold names; rewrite <- EN'; apply map_length).
  assert (T : TStruct (d_named (mkdecl true o (Some fs))) (container_of (mkdecl true o (Some fs))) (nameless fs) = t).
  { unfold t. cbn [d_named]. rewrite ET. unfold container_of. cbn [d_container]. now rewrite ECC. }
  destruct (C69_round_trip (mkdecl true o (Some fs)) fs vs w rest eq_refl (KE fs NF) KD P LF) as [(n & pos & E) D];
    try (rewrite T; assumption); [exact AL|].
  split; [unfold derived_decoder, derived; now rewrite EC, ER, EO|].
  split; [unfold derived_encoder, derived; fold names; now rewrite EC, ER', EO|].
  split; [exact KD|]. split; [exact (KE gs NG)|]. split; [|exact D]. exists n, pos. rewrite <- E.
  rewrite (C69_struct (mkdecl true o (Some fs)) fs no_cattr no_fattr vs _ eq_refl (KE fs NF) LF).
  rewrite (C69_struct (mkdecl true o (Some gs)) gs no_cattr no_fattr vs _ eq_refl (KE gs NG) LG). cbn [d_named].
  unfold container_of. cbn [d_container]. cbn [enc]. rewrite ET. apply alike_fields; [exact ET'|exact EA].
Qed.

(** [#[jbytes(byteorder = "LE")] struct Packet { order: u8, #[jbytes(byteorder = "order")]
    kind: u16, len: u8, #[jbytes(length = "len - 2", offset = 1)] body: Vec<u8>,
    #[jbytes(count = "len % 4")] list: Vec<u16> }] *)
Definition integers : arithmetic val :=
  mkarithmetic val (fun n => Some (VInt (Z.of_N n)))
    (fun o a b =>
       match o, a, b with
       | Plus, VInt a, VInt b => Some (VInt (a + b))
       | Minus, VInt a, VInt b => Some (VInt (a - b))
       | Times, VInt a, VInt b => Some (VInt (a * b))
       | Divide, VInt a, VInt b => Some (VInt (a / b))
       | Remainder, VInt a, VInt b => Some (VInt (a mod b))
       | ShiftLeft, VInt a, VInt b => Some (VInt (Z.shiftl a b))
       | ShiftRight, VInt a, VInt b => Some (VInt (Z.shiftr a b))
       | AndBits, VInt a, VInt b => Some (VInt (Z.land a b))
       | XorBits, VInt a, VInt b => Some (VInt (Z.lxor a b))
       | OrBits, VInt a, VInt b => Some (VInt (Z.lor a b))
       | IsEqual, VInt a, VInt b => Some (VBool (a =? b))
       | Differs, VInt a, VInt b => Some (VBool (negb (a =? b)))
       | Less, VInt a, VInt b => Some (VBool (a <? b))
       | Greater, VInt a, VInt b => Some (VBool (b <? a))
       | AtMost, VInt a, VInt b => Some (VBool (a <=? b))
       | AtLeast, VInt a, VInt b => Some (VBool (b <=? a))
       | IsEqual, VBool a, VBool b => Some (VBool (Bool.eqb a b))
       | Differs, VBool a, VBool b => Some (VBool (negb (Bool.eqb a b)))
       | AndAlso, VBool a, VBool b => Some (VBool (a && b))
       | OrElse, VBool a, VBool b => Some (VBool (a || b))
       | _, _, _ => None
       end%Z)
    (fun t a =>
       match a with
       | VInt z => if bytes_eqb t (txt "usize") then Some (VInt (cast Usize z))
                   else if bytes_eqb t (txt "isize") then Some (VInt (cast Isize z)) else None
       | _ => None
       end)
    (fun a f =>
       match f, a with
       | LNot, VBool b => Some (VBool (negb b))
       | LMinus, VInt z => Some (VInt (- z))
       | _, _ => None
       end).
Definition packet (m : meaning) : source :=
  mksource [jbytes_line [Property (txt "byteorder") (quoted (txt "LE"))]]
    [mksource_field (txt "order") [] m (TInt U8);
     mksource_field (txt "kind") [jbytes_line [Property (txt "byteorder") (quoted (txt "order"))]] m (TInt U16);
     mksource_field (txt "len") [] m (TInt U8);
     mksource_field (txt "body") [jbytes_line [Property (txt "length") (quoted (txt "len - 2")); Property (txt "offset") (txt "1")]] m TBytes;
     mksource_field (txt "list") [jbytes_line [Property (txt "count") (quoted (txt "len % 4"))]] m (TVec (TInt U16))].
Definition nothing_else : bytes -> option val := fun _ => None.
Definition packet_fields (m : meaning) : list (fspec * ty) :=
  let number names := decoder_number integers nothing_else var_code (map txt names) in
  let order names := decoder_number integers nothing_else GenExpr.order_code (map txt names) in
  [(plain, TInt U8);
   (at_order (OVar (order ["order"]%string (txt "order"))) plain, TInt U16);
   (plain, TInt U8);
   (at_offset (const 1) (at_length (number ["order"; "kind"; "len"]%string (txt "len - 2")) plain), TBytes);
   (at_count (number ["order"; "kind"; "len"; "body"]%string (txt "len % 4")) plain, TVec (TInt U16))].
Definition packet_values : list val :=
  [VInt 0; VInt 0x102; VInt 5; VBytes ["A"; "B"; "C"]%byte; VList [VInt 7]].

Lemma one_line l l' : first_line ["jbytes"%string] [jbytes_line l] l' -> l' = l.
Proof.
  intros [(b & a & more & E & T & <- & N)|[-> N]].
  - destruct b as [|x b]; cbn [app] in E.
    + injection E as <- _. reflexivity.
    + injection E as <- _. elim (N (jbytes_line l)); left; reflexivity.
  - elim (N (jbytes_line l)); left; reflexivity.
Qed.
Lemma no_line l : first_line ["jbytes"%string] [] l -> l = [].
Proof. intros [(b & a & more & E & _)|[-> _]]; [destruct b; discriminate|reflexivity]. Qed.
Lemma this_line names l : In "jbytes"%string names -> first_line names [jbytes_line l] l.
Proof.
  intros H. left. exists [], (jbytes_line l), []. split; [reflexivity|]. split; [|split; [reflexivity|easy]].
  exact (in_map list_byte_of_string _ _ H).
Qed.
Lemma more_says A others before f r l gs spec t more :
  fold_left (fun spec g => g spec) gs plain = spec -> s_type f = t ->
  first_line ["jbytes"%string] (s_lines f) l -> ~ (exists a, In a (s_lines f) /\ called (t_name a) ["default"%string]) ->
  Forall2 (says (field_meaning (decoder_number A others) before f)) l gs ->
  (forall k lit, In (Property k lit) l -> ~ called k ["variable_name"%string]) ->
  field_says A others (before ++ [s_name f]) r more -> field_says A others before (f :: r) ((spec, t) :: more).
Proof. intros <- <-. apply fields_more. Qed.
Lemma these_fields m : source_says integers nothing_else (packet m) (mkcspec (Some Le) None) (packet_fields m).
Proof.
  assert (N1 : numeral (txt "1") 1).
  { left. change (txt "1") with [byte_of (48 + 1)]. constructor; [|lia]. left. left. split; [lia|reflexivity]. }
  assert (SL : forall s, forallb (fun c => negb (Byte.eqb c (byte_of 34)) && negb (Byte.eqb c (byte_of 92))) s = true -> string_literal (quoted s) s).
  { intros s H. rewrite forallb_forall in H. split.
    - f_equal. induction s as [|c s IH]; [reflexivity|]. cbn [escaped]. pose proof (H c (or_introl eq_refl)) as Hc.
      apply andb_true_iff in Hc as [Hc _]. apply negb_true_iff in Hc. rewrite Hc. f_equal. apply IH. intros x Hx. apply H. now right.
    - intros Hi. apply H in Hi. apply andb_true_iff in Hi as [_ Hi]. vm_compute in Hi. discriminate. }
  assert (EX : forall s c r, s = c :: r -> (97 <= Byte.to_N c)%N -> expression s).
  { intros s c r -> H. split; [lia|]. intros ->. revert H. vm_compute. congruence. }
  assert (ND : forall l, ~ (exists a, In a [jbytes_line l] /\ called (t_name a) ["default"%string])).
  { intros l (a & [<-|[]] & H). vm_compute in H. intuition discriminate. }
  constructor.
  - eexists. split; [apply this_line; now left|]. split; [|split; [|split]].
    + constructor; [|constructor]. left. exists Le. apply order_little; left; reflexivity.
    + constructor; [|constructor]. vm_compute. intuition discriminate.
    + apply (decided_by about_order [] _ []); [|easy]. apply order_little; left; reflexivity.
    + apply undecided. intros e a [<-|[]] H. inversion H as [|? ? ? K]; subst. vm_compute in K. intuition discriminate.
  - unfold packet, packet_fields. cbn [s_fields].
    apply (more_says _ _ _ _ _ [] []); [reflexivity|reflexivity|now right| |constructor|easy|].
    { intros (a & [] & _). }
    eapply (more_says _ _ _ _ _ _ [_]); [cbn [fold_left]; reflexivity|reflexivity|apply this_line; now left|apply ND| | |].
    { constructor; [|constructor]. apply says_order with (s := txt "order"); [left; reflexivity|now apply SL|].
      vm_compute. intuition discriminate. }
    { intros k lit [[= <- <-]|[]]. vm_compute. intuition discriminate. }
    apply (more_says _ _ _ _ _ [] []); [reflexivity|reflexivity|now right| |constructor|easy|].
    { intros (a & [] & _). }
    eapply (more_says _ _ _ _ _ _ [_; _]); [cbn [fold_left]; reflexivity|reflexivity|apply this_line; now left|apply ND| | |].
    { constructor; [|constructor; [|constructor]].
      - apply says_length; [left; reflexivity|]. apply denotes_expression with (s := txt "len - 2"); [now apply SL|]. eapply EX; [reflexivity|]. vm_compute. discriminate.
      - apply says_offset; [left; reflexivity|]. apply denotes_number with (s := txt "1") (n := 1); [now left|exact N1|reflexivity]. }
    { intros k lit [[= <- <-]|[[= <- <-]|[]]]; vm_compute; intuition discriminate. }
    eapply (more_says _ _ _ _ _ _ [_]); [cbn [fold_left]; reflexivity|reflexivity|apply this_line; now left|apply ND| | |constructor].
    { constructor; [|constructor].
      apply says_count; [left; reflexivity|]. apply denotes_expression with (s := txt "len % 4"); [now apply SL|]. eapply EX; [reflexivity|]. vm_compute. discriminate. }
    { intros k lit [[= <- <-]|[]]. vm_compute. intuition discriminate. }
Qed.
Lemma these_values m : source_writable integers nothing_else (packet m) packet_values.
Proof.
  assert (NL : a_name (txt "len")).
  { split; [split; [left; cbv; split; discriminate|]|discriminate]. repeat (constructor; [left; left; cbv; split; discriminate|]). constructor. }
  assert (NO : a_name (txt "order")).
  { split; [split; [left; cbv; split; discriminate|]|discriminate]. repeat (constructor; [left; left; cbv; split; discriminate|]). constructor. }
  assert (D2 : decimal_text (txt "2") 2) by (repeat split; try discriminate; repeat constructor; discriminate).
  assert (D4 : decimal_text (txt "4") 4) by (repeat split; try discriminate; repeat constructor; discriminate).
  assert (Q : forall s s', no_quotes s -> string_literal (quoted s) s' -> s' = s).
  { intros s s' H [E _]. unfold quoted in E. apply app_inv_head in E. apply app_inv_tail in E. subst s.
    induction s' as [|c r IH]; [reflexivity|]. cbn [escaped] in *. destruct (Byte.eqb c (byte_of 34)) eqn:X.
    - apply Byte.byte_dec_bl in X. subst c. elim H. right. now left.
    - f_equal. apply IH. intros Hi. apply H. now right. }
  assert (R : forall o sign result left right, sign_of o sign result left right -> reads_as left (txt "len ") (EName (txt "len")) ->
    forall d k, reads_as right [" "%byte; d] (ENum k) ->
    reads_as Disjunction (txt "len " ++ list_byte_of_string sign ++ [" "%byte; d]) (EOp o (EName (txt "len")) (ENum k))).
  { intros o sign result left right G H d k H'. apply (whole result). now apply ra_operation with (left := left) (right := right). }
  intros i f l Hi Hl.
  destruct i as [|[|[|[|[|i]]]]]; cbn [packet s_fields nth_error] in Hi; try (destruct i; discriminate); injection Hi as <-; cbn [s_lines] in Hl;
    first [apply no_line in Hl | apply one_line in Hl]; subst l.
  - constructor.
  - constructor; [|constructor]. intros s H. apply Q in H; [|vm_compute; intuition discriminate]. subst s.
    split; [intros K; vm_compute in K; intuition discriminate|]. intros _ _. split.
    + exists (txt "order"), []. split; [reflexivity|]. split; [now left|easy].
    + exists 0%Z, (EName (txt "order")), (VInt 0). split; [now apply ra_atom, ra_name|]. split; reflexivity.
  - constructor.
  - constructor; [|constructor; [|constructor]].
    + intros s H. apply Q in H; [|vm_compute; intuition discriminate]. subst s.
      split; [|intros K; vm_compute in K; intuition discriminate]. intros _ _. split.
      * eexists (txt "len"), _. split; [reflexivity|]. split; [vm_compute; tauto|easy].
      * exists 3%Z, (EOp Minus (EName (txt "len")) (ENum 2)), (VInt 3). split; [|split; reflexivity].
        eapply (R Minus "-"%string); [constructor|apply (ra_after Sum (txt "len")); now apply ra_sum, ra_product, ra_atom, ra_name|].
        apply (ra_before Product (txt "2")). now apply ra_product, ra_atom, ra_number.
    + intros s [H _]. discriminate H.
  - constructor; [|constructor]. intros s H. apply Q in H; [|vm_compute; intuition discriminate]. subst s.
    split; [|intros K; vm_compute in K; intuition discriminate]. intros _ _. split.
    + eexists (txt "len"), _. split; [reflexivity|]. split; [vm_compute; tauto|easy].
    + exists 1%Z, (EOp Remainder (EName (txt "len")) (ENum 4)), (VInt 1). split; [|split; reflexivity].
      eapply (R Remainder "%"%string); [constructor|apply (ra_after Product (txt "len")); now apply ra_product, ra_atom, ra_name|].
      apply (ra_before Cast (txt "4")). now apply ra_atom, ra_number.
Qed.
(** [Packet { order: 0, kind: 0x102, len: 5, body: b"ABC", list: [7] }]: the kind is
    big-endian, as [order] says, a padding byte, three bytes and one number, little-endian. *)
Example C76_case : forall m, exists d e,
  derived_decoder integers nothing_else (packet m) = Some d /\ derived_encoder integers nothing_else (packet m) packet_values = Some e /\
  struct_compiles d [] = true /\ encoder_compiles e [] = true /\
  let w := ["000"; "001"; "002"; "005"; "000"; "A"; "B"; "C"; "007"; "000"]%byte in
  (exists n pos, run_encoder enc e no_cattr no_fattr packet_values buf_new = Ok n (mkbuf w pos)) /\
  run_struct dec d no_cattr (w ++ ["255"%byte]) 0 = Ok (VList packet_values) 10.
Proof.
  intros m. eapply (C76_round_trip integers nothing_else (packet m) (mkcspec (Some Le) None) (packet_fields m) packet_values).
  - exact (these_fields m).
  - cbn. repeat constructor; cbn; intuition discriminate.
  - intros x Hx. cbn in Hx. destruct Hx as [<-|[<-|[<-|[<-|[<-|[]]]]]].
    all: split; [cbn; intuition discriminate|eexists _, _; split; [reflexivity|cbv; intuition discriminate]].
  - reflexivity.
  - split; [reflexivity|]. split; [cbn; intuition discriminate|reflexivity].
  - exact (these_values m).
  - unfold packet_fields. well.
  - vm_compute. reflexivity.
  - vm_compute. reflexivity.
  - vm_compute. reflexivity.
Qed.

Print Assumptions C76_numbers.
Print Assumptions C76_orders.
Print Assumptions C76_decoder.
Print Assumptions C76_round_trip.

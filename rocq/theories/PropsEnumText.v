(** C63, C64: the text of the attributes of an enum and its variants. *)
From Coq Require Import Ascii String.
From Verif Require Import Base BaseLemmas Ints Spec SpecOps Text TextSpec Reader Sugar AttrParse AttrSpec AttrLemmas JDefaultSpec WireSpec
  EnumText EnumTextSpec EnumTextLemmas Schema.
Close Scope string_scope.

(** ** C50: functions of the user's own on a field *)

(** [with_decode] names the function that decodes the field and goes before [with],
    which names a module with the functions [decode] and [encode]; [with_args] is the
    extra argument. *)
Theorem C50_codecs : forall m l fa od oe om oa,
  attributes_of [jbytes_line l] = Some fa ->
  (forall k lit, In (Property k lit) l ->
     called k ["with_decode"; "decode_with"; "with_encode"; "encode_with"; "with"; "with_args"]%string ->
     exists s, string_literal lit s) ->
  decided (text_of ["with_decode"; "decode_with"]%string) l od -> decided (text_of ["with_encode"; "encode_with"]%string) l oe ->
  decided (text_of ["with"]%string) l om -> decided (text_of ["with_args"]%string) l oa ->
  f_with_decode (field_spec m fa) =
    match od, om with
    | Some f, _ => Some (m_decoder m f oa)
    | None, Some module => Some (m_decoder m (module ++ list_byte_of_string "::decode") oa)
    | None, None => None
    end /\
  f_with_encode (field_spec m fa) =
    match oe, om with
    | Some f, _ => Some (m_encoder m f oa)
    | None, Some module => Some (m_encoder m (module ++ list_byte_of_string "::encode") oa)
    | None, None => None
    end.
Proof.
  intros m l fa od oe om oa A T D E M X.
  assert (S : forall names, incl names ["with_decode"; "decode_with"; "with_encode"; "encode_with"; "with"; "with_args"]%string ->
              forall k lit, In (Property k lit) l -> called k names -> exists t, string_literal lit t).
  { intros names I k lit J C. apply (T k lit J). unfold called in *. apply in_map_iff in C as (x & <- & C). apply in_map. exact (I x C). }
  assert (XD := fun H1 H2 H3 H4 => text_member SWithDecode ["with_decode"; "decode_with"]%string H1 H2 H3 H4 l fa od A
                  (S ["with_decode"; "decode_with"]%string ltac:(intros x H; cbn [In] in *; intuition)) D).
  assert (XE := fun H1 H2 H3 H4 => text_member SWithEncode ["with_encode"; "encode_with"]%string H1 H2 H3 H4 l fa oe A
                  (S ["with_encode"; "encode_with"]%string ltac:(intros x H; cbn [In] in *; intuition)) E).
  assert (XM := fun H1 H2 H3 H4 => text_member SWith ["with"]%string H1 H2 H3 H4 l fa om A
                  (S ["with"]%string ltac:(intros x H; cbn [In] in *; intuition)) M).
  assert (XA := fun H1 H2 H3 H4 => text_member SWithArgs ["with_args"]%string H1 H2 H3 H4 l fa oa A
                  (S ["with_args"]%string ltac:(intros x H; cbn [In] in *; intuition)) X).
  assert (P1 : forall s (x : string) rk, In (x, (rk, s)) field_properties ->
     (s = SWithDecode -> In x ["with_decode"; "decode_with"]%string) /\ (s = SWithEncode -> In x ["with_encode"; "encode_with"]%string) /\
     (s = SWith -> In x ["with"]%string) /\ (s = SWithArgs -> In x ["with_args"]%string)).
  { intros s x rk I. unfold field_properties in I. cbn [In] in I.
    repeat (destruct I as [I|I]; [injection I as <- <- <-; repeat split; (discriminate || (intros _; cbn; tauto))|]). destruct I. }
  assert (P2 : forall s x, In (x, s) field_tags -> s <> SWithDecode /\ s <> SWithEncode /\ s <> SWith /\ s <> SWithArgs).
  { intros s x I. unfold field_tags in I. cbn [In] in I.
    repeat (destruct I as [I|I]; [injection I as <- <-; repeat split; discriminate|]). destruct I. }
  assert (P3 : forall s names, forallb (fun x => match assoc (txt x) field_properties with
                 | Some (RString, s') => slot_beq s' s | _ => false end) names = true ->
                 forall x, In x names -> assoc (txt x) field_properties = Some (RString, s)).
  { intros s names H x I. rewrite forallb_forall in H. specialize (H x I). destruct (assoc _ _) as [[[] s']|]; try discriminate.
    apply internal_slot_dec_bl in H. rewrite H. reflexivity. }
  specialize (XD (P3 SWithDecode ["with_decode"; "decode_with"]%string eq_refl) (fun x rk H => proj1 (P1 _ x rk H) eq_refl) (fun x H => proj1 (P2 _ x H) eq_refl) ltac:(discriminate)).
  specialize (XE (P3 SWithEncode ["with_encode"; "encode_with"]%string eq_refl) (fun x rk H => proj1 (proj2 (P1 _ x rk H)) eq_refl) (fun x H => proj1 (proj2 (P2 _ x H)) eq_refl) ltac:(discriminate)).
  specialize (XM (P3 SWith ["with"]%string eq_refl) (fun x rk H => proj1 (proj2 (proj2 (P1 _ x rk H))) eq_refl)
                (fun x H => proj1 (proj2 (proj2 (P2 _ x H))) eq_refl) ltac:(discriminate)).
  specialize (XA (P3 SWithArgs ["with_args"]%string eq_refl) (fun x rk H => proj2 (proj2 (proj2 (P1 _ x rk H))) eq_refl)
                (fun x H => proj2 (proj2 (proj2 (P2 _ x H))) eq_refl) ltac:(discriminate)).
  unfold field_spec. cbn [f_with_decode f_with_encode]. rewrite XD, XE, XM, XA. unfold with_code.
  destruct od, oe, om, oa; split; reflexivity.
Qed.
Print Assumptions C50_codecs.
(** [#[jbytes(with = "net", with_decode = "read", with_args = "x")]] *)
Definition codec_line : list entry :=
  [Property (txt "with") (quoted (txt "net")); Property (txt "with_decode") (quoted (txt "read"));
   Property (txt "with_args") (quoted (txt "x"))].
Example C50_codecs_case : forall m,
  (exists fa, attributes_of [jbytes_line codec_line] = Some fa /\
     f_with_decode (field_spec m fa) = Some (m_decoder m (txt "read") (Some (txt "x"))) /\
     f_with_encode (field_spec m fa) = Some (m_encoder m (txt "net::encode") (Some (txt "x")))) /\
  decided (text_of ["with_decode"; "decode_with"]%string) codec_line (Some (txt "read")) /\
  decided (text_of ["with_encode"; "encode_with"]%string) codec_line None.
Proof.
  intros m. split; [eexists; split; [reflexivity|split; reflexivity]|].
  assert (L : forall s, In s ["net"; "read"; "x"]%string -> string_literal (quoted (txt s)) (txt s)).
  { intros s I. repeat (destruct I as [<-|I]; [split; [reflexivity|]; intros H; vm_compute in H; repeat (destruct H as [H|H]; [discriminate|]); exact H|]).
    destruct I. }
  split.
  - apply (decided_by _ [Property (txt "with") (quoted (txt "net"))]).
    + eexists _, _. split; [reflexivity|]. split; [left; reflexivity|]. apply L. right. left. reflexivity.
    + intros e a [<-|[]] (k & lit & E & C & _). injection E as <- <-. vm_compute in C. repeat (destruct C as [C|C]; [discriminate|]). exact C.
  - constructor. intros e a I (k & lit & -> & C & _). unfold codec_line in I. cbn [In] in I.
    repeat (destruct I as [I|I]; [injection I as <- <-; vm_compute in C; repeat (destruct C as [C|C]; [discriminate|]); exact C|]). exact I.
Qed.

(** ** C63: entries on a container *)

(** The first [#[jbytes(..)]] or [#[repr(..)]] is read; in it the last entry about the
    byte order, the width of the tag and so on decides. *)
Theorem C63_container : forall before a more,
  (forall b, In b before -> ~ called (t_name b) ["jbytes"; "repr"]%string) -> called (t_name a) ["jbytes"; "repr"]%string ->
  Forall container_entry (t_entries a) ->
  exists ca, container_attributes_of (before ++ a :: more) = Some ca /\
    decided about_order (t_entries a) (c_order (e_c (enum_spec ca))) /\
    decided about_width (t_entries a) (c_byte_count (e_c (enum_spec ca))) /\
    (e_no_tag (enum_spec ca) = true <-> tagged (t_entries a) "byte_count_disable") /\
    announced (t_entries a) (decoder_branching ca) /\
    (~ (tagged (t_entries a) "branch_starts_with" /\ tagged (t_entries a) "branch_starts_with_untake") ->
     e_branching (enum_spec ca) = decoder_branching ca /\ encoder_branching ca = decoder_branching ca).
Proof.
  intros before a more N C F. rewrite (container_line _ _ more N C).
  destruct (container_all _ F) as (ca & -> & RO & RW & RT & RD & RS & RU). exists ca. split; [reflexivity|].
  split; [exact RO|]. split; [exact RW|]. split; [exact RD|].
  unfold decoder_branching, encoder_branching, enum_spec. cbn [e_branching].
  destruct (ca_starts_with_untake ca) eqn:U.
  - rewrite orb_true_r. assert (V : tagged (t_entries a) "branch_starts_with_untake") by (apply RU; reflexivity).
    split; [apply ann_untake; exact V|]. intros B. destruct (ca_starts_with ca) eqn:S; [|auto].
    destruct B. split; [apply RS; reflexivity|exact V].
  - assert (V : ~ tagged (t_entries a) "branch_starts_with_untake") by (intros X; apply RU in X; discriminate).
    rewrite orb_false_r. destruct (ca_starts_with ca) eqn:S.
    + split; [apply ann_prefix; [apply RS; reflexivity|exact V]|auto].
    + assert (W : ~ tagged (t_entries a) "branch_starts_with") by (intros X; apply RS in X; discriminate). split; [|auto].
      destruct (ca_take_bytes ca) as [[]|]; constructor; assumption.
Qed.
Print Assumptions C63_container.
Theorem C63_no_line : forall l, (forall b, In b l -> ~ called (t_name b) ["jbytes"; "repr"]%string) ->
  exists ca, container_attributes_of l = Some ca /\ enum_spec ca = mkespec (mkcspec None None) ByTag false
             /\ decoder_branching ca = ByTag /\ encoder_branching ca = ByTag.
Proof. intros l N. exists default_container. split; [exact (container_none l N)|]. repeat split. Qed.
Print Assumptions C63_no_line.
(** Such a list of entries leaves no choice. *)
Theorem C63_determined : forall l,
  (forall o o', decided about_order l o -> decided about_order l o' -> o = o') /\
  (forall o o', decided about_width l o -> decided about_width l o' -> o = o') /\
  (forall b b', announced l b -> announced l b' -> b = b').
Proof.
  intros l.
  assert (T : forall o o', decided about_take l o -> decided about_take l o' -> o = o').
  { apply decided_fun. intros e a b A B. destruct A as [k lit n K H]. inversion B as [k' lit' n' K' H']; subst.
    apply number_read in H. apply number_read in H'. congruence. }
  split; [|split].
  - apply decided_fun. intros e a b A B.
    assert (W : forall s, called s ["BE"; ">"; "0"]%string -> called s ["LE"; "<"; "1"]%string -> False).
    { intros s [<-|[<-|[<-|[]]]] [X|[X|[X|[]]]]; discriminate. }
    assert (Q : forall b, about_order e b -> exists k s, e = Property k (quoted s) /\
              called s (match b with Be => ["BE"; ">"; "0"] | Le => ["LE"; "<"; "1"] end)%string).
    { intros x [k s K H|k s K H]; exists k, s; auto. }
    apply Q in A as (k & s & -> & A). apply Q in B as (k' & s' & E & B).
    assert (E' : quoted s = quoted s') by congruence. apply quoted_inj in E' as <-.
    destruct a, b; try reflexivity; [destruct (W _ A B)|destruct (W _ B A)].
  - apply decided_fun. intros e a b A B. destruct A as [i n I|k lit n K H]; inversion B as [i' n' I' E|k' lit' n' K' H']; subst.
    + assert (i' = i) as -> by (rewrite <- (string_of_list_byte_of_string i), <- (string_of_list_byte_of_string i'); congruence).
      repeat (destruct I as [I|I]; [injection I as <- <-;
        repeat (destruct I' as [I'|I']; [first [discriminate I'|injection I' as <-; reflexivity]|]); destruct I'|]). destruct I.
    + apply number_read in H. apply number_read in H'. congruence.
  - intros b b' A B. destruct A, B; try reflexivity; try contradiction; match goal with H : decided _ _ _, H' : decided _ _ _ |- _ => pose proof (T _ _ H H'); congruence end.
Qed.
Print Assumptions C63_determined.
Theorem C63_unknown : forall before a more,
  (forall b, In b before -> ~ called (t_name b) ["jbytes"; "repr"]%string) -> called (t_name a) ["jbytes"; "repr"]%string ->
  (container_attributes_of (before ++ a :: more) = None <-> exists e, In e (t_entries a) /\ ~ known_container e).
Proof. intros before a more N C. rewrite (container_line _ _ more N C). apply container_known. Qed.
Print Assumptions C63_unknown.
(** With both tags the encoder writes the prefix and the decoder leaves it. *)
Theorem C63_both_refuted : forall before a more,
  (forall b, In b before -> ~ called (t_name b) ["jbytes"; "repr"]%string) -> called (t_name a) ["jbytes"; "repr"]%string ->
  Forall container_entry (t_entries a) ->
  tagged (t_entries a) "branch_starts_with" -> tagged (t_entries a) "branch_starts_with_untake" ->
  exists ca, container_attributes_of (before ++ a :: more) = Some ca /\
    encoder_branching ca = ByPrefix /\ decoder_branching ca = ByPrefixUntake.
Proof.
  intros before a more N C F S U. rewrite (container_line _ _ more N C).
  destruct (container_all _ F) as (ca & -> & _ & _ & _ & _ & RS & RU). exists ca. split; [reflexivity|].
  unfold decoder_branching, encoder_branching. rewrite (proj2 RS S), (proj2 RU U). split; reflexivity.
Qed.
Print Assumptions C63_both_refuted.
(** [#[repr(C)]] and [#[repr(i16)]] are refused. *)
Theorem C63_repr_refuted : forall before more i,
  (forall b, In b before -> ~ called (t_name b) ["jbytes"; "repr"]%string) ->
  called i ["C"; "transparent"; "packed"; "i8"; "i16"; "i32"; "i64"; "isize"; "u128"; "i128"]%string ->
  container_attributes_of (before ++ mkattribute (txt "repr") [Tag i] :: more) = None.
Proof.
  intros before more i N H. apply C63_unknown; [exact N|right; left; reflexivity|]. exists (Tag i). split; [left; reflexivity|].
  intros K. cbn [known_container] in K. unfold called in *. cbn [map In] in *.
  repeat (destruct H as [<-|H]; [repeat (destruct K as [K|K]; [discriminate K|]); destruct K|]). destruct H.
Qed.
Print Assumptions C63_repr_refuted.
Definition sample_line : list entry :=
  [Tag (txt "u16"); Property (txt "byteorder") (quoted (txt "LE")); Tag (txt "u32"); Property (txt "byte_count") (txt "0x3")].
Example C63_case : Forall container_entry sample_line /\
  option_map (fun ca => (enum_spec ca, decoder_branching ca)) (container_attributes_of [mkattribute (txt "derive") []; mkattribute (txt "jbytes") sample_line]) =
  Some (mkespec (mkcspec (Some Le) (Some 3)) ByTag false, ByTag).
Proof.
  split; [|reflexivity]. repeat apply Forall_cons; [..|apply Forall_nil].
  - right. left. exists 2. constructor. right. left. reflexivity.
  - left. exists Le. constructor; [left; reflexivity|left; reflexivity].
  - right. left. exists 4. constructor. right. right. left. reflexivity.
  - right. left. exists 3. constructor; [left; reflexivity|]. exists (txt "0x3"). split; [left; reflexivity|]. split; [|lia].
    right. exists (txt "3"). split; [reflexivity|]. apply (written_one 16 "3"%byte 3); [|lia]. left. left. split; [lia|reflexivity].
Qed.

(** ** C64: numbers, arms and prefixes of variants *)
Theorem C64_numbers : forall pm ds vs, Forall2 (fun d v => exists l, declares pm d l v) ds vs ->
  variant_numbers 0 ds = Some (numbering 0 vs).
Proof. intros pm ds vs F. exact (numbers_read pm ds vs F 0). Qed.
Print Assumptions C64_numbers.
(** Exactly these texts give a number; with any other the macro panics. *)
Theorem C64_texts : forall s current n, number_from s current = Some n <-> counted current s n.
Proof. exact number_from_iff. Qed.
Print Assumptions C64_texts.
Theorem C64_arms : forall pm d l v n, reads_numbers pm -> declares pm d l v -> v_bytes v = None ->
  exists fa, attributes_of (d_attrs d) = Some fa /\ forall tag, arm_takes pm (arm_of fa n) tag = accepts v n tag.
Proof.
  intros pm d l v n P D B. destruct (variant_read _ _ _ _ D) as (fa & A & R). exists fa. split; [exact A|].
  intros tag. exact (arm_read pm fa d v n tag P R B).
Qed.
Print Assumptions C64_arms.
Theorem C64_bytes_arms : forall pm d l v n, declares pm d l v -> v_bits v = None -> v_default v = true \/ v_bytes v <> None ->
  exists fa, attributes_of (d_attrs d) = Some fa /\
    forall value, arm_takes_bytes pm (arm_of fa n) value = Some (v_default v || bytes_eqb value (literal v)).
Proof.
  intros pm d l v n D NB E. destruct (variant_read _ _ _ _ D) as (fa & A & R). exists fa. split; [exact A|].
  intros value. exact (arm_bytes pm fa d v n value R NB E).
Qed.
Print Assumptions C64_bytes_arms.
(** The chain of conditions of an enum that goes by prefixes is Rust exactly if the
    variants come in the right order. *)
Theorem C64_chain : forall pm ds vs, Forall2 (fun d v => exists l, declares pm d l v) ds vs ->
  exists cs, conditions 0 ds = Some cs /\ (grammatical (closed cs) = true <-> chain_order vs).
Proof.
  intros pm ds vs F. destruct (conditions_read pm ds vs F 0) as (cs & C & R). exists cs. split; [exact C|].
  exact (chain_grammar pm cs vs R).
Qed.
Print Assumptions C64_chain.
(** Then the first variant that is the default one or whose bytes lead the data is taken. *)
Theorem C64_chain_takes : forall pm ds vs, Forall2 (fun d v => exists l, declares pm d l v) ds vs ->
  Forall (fun v => v_value v = None) vs ->
  exists cs, conditions 0 ds = Some cs /\ forall data, chain_takes pm data (closed cs) =
    Some (match first_such (fun v => v_default v || starts_with (literal v) data) vs with Some i => i | None => length vs end).
Proof.
  intros pm ds vs F V. destruct (conditions_read pm ds vs F 0) as (cs & C & R). exists cs. split; [exact C|].
  intros data. apply (chain_choice pm cs vs (numbering 0 vs)); [exact V| |exact R]. symmetry. apply numbering_length.
Qed.
Print Assumptions C64_chain_takes.

(** Texts that are patterns for rustc and make the macro panic: hexadecimal ranges, *)
Theorem C64_hex_range_refuted : forall a b current, number_from (txt "0x" ++ a ++ dots ++ b) current = None.
Proof.
  intros a b current. destruct (number_from _ current) as [n|] eqn:E; [|reflexivity]. exfalso. apply number_from_iff in E.
  assert (Z : exists t, txt "0x" ++ a ++ dots ++ b = txt "0x" ++ t) by eauto.
  destruct E as [t n X (u & U & W & _)|t n N _ _|t n N _ _ _|N _ _|n N _ _ _]; try (destruct (N Z)).
  apply app_inv_head in X as <-. apply (digits_not 16 u n "."%byte W (not_digit "."%byte eq_refl)).
  assert (I : In "."%byte (a ++ dots ++ b)) by (apply in_app_iff; right; left; reflexivity).
  destruct U as [U|U]; [rewrite <- U; exact I|]. rewrite U in I. destruct I as [I|I]; [discriminate I|exact I].
Qed.
Print Assumptions C64_hex_range_refuted.
(** ranges without an end, *)
Theorem C64_open_range_refuted : forall a n current, written_in 10 a n -> number_from (a ++ dots) current = None.
Proof.
  intros a n current A. destruct (number_from _ current) as [m|] eqn:E; [|reflexivity]. exfalso. apply number_from_iff in E.
  pose proof (fun c H => digits_not 10 a n c A (not_digit c H)) as NA.
  assert (Z : contains dots (a ++ dots)) by (exists a, []; reflexivity).
  assert (Y : ~ contains (txt "..=") (a ++ dots)).
  { intros C. apply (contains_in _ _ "="%byte) in C; [|right; right; left; reflexivity].
    apply in_app_iff in C as [C|[C|[C|[]]]]; [exact (NA "="%byte eq_refl C)|discriminate C..]. }
  destruct E as [t m X _|t m _ (u & X & _) _|t m _ _ F W|_ N _|m _ N _ _].
  - exact (digits_0x a n _ A (ex_intro _ t X)).
  - apply Y. exists u, t. exact X.
  - pose proof (first_char "."%byte ["."%byte] a [] (NA "."%byte eq_refl)) as G. apply after_some in G. apply after_some in F.
    change (a ++ ["."; "."]%byte ++ []) with (a ++ dots) in G. change (["."; "."]%byte) with dots in G. rewrite G in F. injection F as <-.
    destruct W as (u & [<-|X] & W & _); [destruct (written_nonempty _ _ _ W eq_refl)|discriminate X].
  - exact (N Z).
  - exact (N Z).
Qed.
Print Assumptions C64_open_range_refuted.
(** alternatives, *)
Theorem C64_alternatives_refuted : forall a b n m current, written_in 10 a n -> written_in 10 b m ->
  number_from (a ++ txt " | " ++ b) current = None.
Proof.
  intros a b n m current A B. destruct (number_from _ current) as [k|] eqn:E; [|reflexivity]. exfalso. apply number_from_iff in E.
  pose proof (fun c H => digits_not 10 a n c A (not_digit c H)) as NA.
  pose proof (fun c H => digits_not 10 b m c B (not_digit c H)) as NB.
  assert (I : forall c, is_hex c = None -> ~ In c (txt " | ") -> ~ In c (a ++ txt " | " ++ b)).
  { intros c H N C. apply in_app_iff in C as [C|C]; [exact (NA c H C)|]. apply in_app_iff in C as [C|C]; [exact (N C)|exact (NB c H C)]. }
  assert (D : ~ contains dots (a ++ txt " | " ++ b)).
  { intros C. apply (contains_in _ _ "."%byte) in C; [|left; reflexivity]. revert C. apply I; [reflexivity|].
    intros X. repeat (destruct X as [X|X]; [discriminate X|]). destruct X. }
  destruct E as [t k X _|t k _ (u & X & _) _|t k _ _ (u & X & _) _|_ _ C|k _ _ _ (u & U & W & _)].
  - assert (J : In "x"%byte (a ++ txt " | " ++ b)) by (rewrite X; right; left; reflexivity). revert J. apply I; [reflexivity|].
    intros J. repeat (destruct J as [J|J]; [discriminate J|]). destruct J.
  - apply D, upto_dots. exists u, t. exact X.
  - apply D. exists u, t. exact X.
  - apply (contains_in _ _ (byte_of 34)) in C; [|right; left; reflexivity]. revert C. apply I; [reflexivity|].
    intros J. repeat (destruct J as [J|J]; [discriminate J|]). destruct J.
  - apply (digits_not 10 u k "|"%byte W (not_digit "|"%byte eq_refl)).
    assert (J : In "|"%byte (a ++ txt " | " ++ b)) by (apply in_app_iff; right; apply in_app_iff; left; right; left; reflexivity).
    destruct U as [U|U]; [rewrite <- U; exact J|]. rewrite U in J. destruct J as [J|J]; [discriminate J|exact J].
Qed.
Print Assumptions C64_alternatives_refuted.
(** byte strings with ".." in them. *)
Theorem C64_dots_refuted : forall s current, byte_string_literal s -> contains dots s -> number_from s current = None.
Proof.
  intros s current (t & -> & _) D. destruct (number_from _ current) as [n|] eqn:E; [|reflexivity]. exfalso. apply number_from_iff in E.
  assert (Q : forall p u, follows_first p ("b"%byte :: quoted t) u -> signed_numeral 10 u n -> False).
  { intros p u (a & X & _) (w & U & W & _). assert (I : In (byte_of 34) u).
    { destruct u as [|c u _] using rev_ind.
      - exfalso. destruct U as [<-|U]; [destruct (written_nonempty _ _ _ W eq_refl)|discriminate U].
      - change ("b"%byte :: quoted t) with (("b"%byte :: byte_of 34 :: t) ++ [byte_of 34]) in X.
        replace (a ++ p ++ u ++ [c]) with ((a ++ p ++ u) ++ [c]) in X by (rewrite <- !app_assoc; reflexivity).
        apply app_inj_tail in X as [_ <-]. apply in_app_iff. right. left. reflexivity. }
    apply (digits_not 10 w n (byte_of 34) W (not_digit (byte_of 34) eq_refl)).
    destruct U as [<-|U]; [exact I|]. rewrite U in I. destruct I as [I|I]; [discriminate I|exact I]. }
  destruct E as [u n X _|u n _ F W|u n _ _ F W|_ N _|n _ N _ _].
  - discriminate X.
  - exact (Q _ u F W).
  - exact (Q _ u F W).
  - exact (N D).
  - exact (N D).
Qed.
Print Assumptions C64_dots_refuted.
(** Variants that go by their names do not compile: the chain begins with "else if". *)
Theorem C64_names_refuted : forall pm d ds v vs, Forall2 (fun d v => exists l, declares pm d l v) (d :: ds) (v :: vs) ->
  ~ value_given v -> exists cs, conditions 0 (d :: ds) = Some cs /\ grammatical (closed cs) = false.
Proof.
  intros pm d ds v vs F N. destruct (C64_chain pm _ _ F) as (cs & C & G). exists cs. split; [exact C|].
  destruct (grammatical (closed cs)); [|reflexivity]. destruct (proj1 G eq_refl) as (_ & X & _). destruct (N X).
Qed.
Print Assumptions C64_names_refuted.

(** *** A case *)
Fixpoint before_dot (s : bytes) : bytes :=
  match s with [] => [] | c :: r => if Byte.eqb c "."%byte then [] else c :: before_dot r end.
Definition sample_patterns : patterns :=
  mkpatterns
    (fun s tag => match numeral_of s with
                  | Some n => tag =? n
                  | None =>
                      let lo := decimal_value (before_dot s) in
                      match after_text (txt "..=") s, after_text dots s with
                      | Some r, _ => (lo <=? tag) && (tag <=? decimal_value r)
                      | None, Some r => (lo <=? tag) && (tag <? decimal_value r)
                      | None, None => false
                      end
                  end)
    (fun s => match numeral_of s with Some n => n | None => 0 end)
    (fun s => removelast (skipn 2 s)).
Lemma written_decimal s n : written_in 10 s n -> decimal_value s = n.
Proof.
  assert (D : forall c d, hex_digit c d -> d < 10 -> Byte.to_N c - 48 = d).
  { intros c d [[[_ ->]|[X _]]|[[_ ->]|[X _]]] L; try lia;
      change (Byte.to_N (byte_of (48 + d))) with (b2n (n2b (48 + d))); rewrite b2n_n2b, N.mod_small by lia; lia. }
  intros W. unfold decimal_value. induction W as [c d H L|s n c d W IH H L]; [cbn; rewrite (D c d H L); lia|].
  rewrite fold_left_app, IH. cbn [fold_left]. rewrite (D c d H L). reflexivity.
Qed.
Lemma before_digits a b : ~ In "."%byte a -> before_dot (a ++ "."%byte :: b) = a.
Proof.
  induction a as [|c a IH]; intros N; [reflexivity|]. cbn [app before_dot]. destruct (Byte.eqb c "."%byte) eqn:E.
  - apply Byte.byte_dec_bl in E as ->. destruct N. left. reflexivity.
  - f_equal. apply IH. intros I. apply N. right. exact I.
Qed.
Lemma lenient_no_dot s n : lenient_numeral s n -> ~ In "."%byte s.
Proof.
  intros (k & sign & t & -> & S & W) I. apply in_app_iff in I as [I|I]; [|apply in_app_iff in I as [I|I]].
  - clear -I. induction k as [|k IH]; [destruct I|]. destruct I as [I|[I|I]]; [discriminate I..|exact (IH I)].
  - destruct S as [-> | ->]; [destruct I|destruct I as [I|[]]; discriminate I].
  - exact (digits_not _ _ _ _ W (not_digit "."%byte eq_refl) I).
Qed.
Lemma sample_reads : reads_numbers sample_patterns.
Proof.
  split.
  - intros s n tag H L. cbn [p_matches sample_patterns].
    rewrite (proj2 (numeral_of_iff s n)) by (split; [apply numeral_lenient; exact H|exact L]). reflexivity.
  - intros s lo hi incl tag (a & b & -> & A & B & _).
    pose proof (digits_not 10 a lo "."%byte A (not_digit "."%byte eq_refl)) as NA.
    pose proof (fun c H => digits_not 10 b hi c B (not_digit c H)) as NB.
    cbn [p_matches sample_patterns]. destruct (numeral_of _) as [n|] eqn:E.
    { exfalso. apply numeral_of_iff in E as [E _]. apply (lenient_no_dot _ _ E). apply in_app_iff. right. destruct incl; left; reflexivity. }
    cbv zeta. destruct incl.
    + assert (before_dot (a ++ list_byte_of_string "..=" ++ b) = a) as -> by exact (before_digits a _ NA).
      rewrite (written_decimal _ _ A).
      pose proof (first_char "."%byte ["."; "="]%byte a b NA) as F. apply after_some in F.
      change (a ++ list_byte_of_string "..=" ++ b) with (a ++ ["."; "."; "="]%byte ++ b). change (txt "..=") with ["."; "."; "="]%byte.
      rewrite F, (written_decimal _ _ B). reflexivity.
    + assert (before_dot (a ++ list_byte_of_string ".." ++ b) = a) as -> by exact (before_digits a _ NA).
      rewrite (written_decimal _ _ A).
      pose proof (first_char "."%byte ["."]%byte a b NA) as F. apply after_some in F.
      change (a ++ list_byte_of_string ".." ++ b) with (a ++ ["."; "."]%byte ++ b).
      assert (N : after_text (txt "..=") (a ++ ["."; "."]%byte ++ b) = None).
      { apply after_none. intros C. apply (contains_in _ _ "="%byte) in C; [|right; right; left; reflexivity].
        apply in_app_iff in C as [C|[C|[C|C]]]; [exact (digits_not 10 a lo "="%byte A (not_digit "="%byte eq_refl) C)|discriminate C..|exact (NB "="%byte eq_refl C)]. }
      rewrite N. change dots with ["."; "."]%byte. rewrite F, (written_decimal _ _ B). reflexivity.
Qed.
(** [enum { #[jbytes(branch_range = "3..=7")] A, #[jbytes(branch_value = 0x10)] B, C, #[jbytes(branch_default)] D }] *)
Definition sample_decls : list variant_decl :=
  [mkvariant [mkattribute (txt "jbytes") [Property (txt "branch_range") (quoted (txt "3..=7"))]] (txt "a") None;
   mkvariant [mkattribute (txt "doc") []; mkattribute (txt "jbytes") [Property (txt "branch_value") (txt "0x10")]] (txt "b") None;
   mkvariant [] (txt "c") None;
   mkvariant [mkattribute (txt "jbytes") [Tag (txt "branch_default")]] (txt "d") None].
Definition sample_variant (name : string) (range : option (N * N * bool)) (value : option N) (dflt : bool) : vspec :=
  mkvspec false plain (txt name) None dflt None value None range.
Definition sample_variants : list vspec :=
  [sample_variant "a" (Some (3, 7, true)) None false; sample_variant "b" None (Some 16) false; sample_variant "c" None None false;
   sample_variant "d" None None true].
Lemma none_decided key l : (forall k lit, In (Property k lit) l -> k <> txt key) -> decided (about_text key) l None.
Proof. intros N. constructor. intros e s I (k & lit & -> & K & _). apply called_one in K. exact (N _ _ I K). Qed.
Ltac no_entry := apply none_decided; intros ? ? X; repeat (destruct X as [X|X]; [first [discriminate X|injection X as <- <-; discriminate]|]); destruct X.
Example C64_case : Forall2 (fun d v => exists l, declares sample_patterns d l v) sample_decls sample_variants /\
  variant_numbers 0 sample_decls = Some [7; 16; 17; 18].
Proof.
  split; [|reflexivity].
  assert (NL : forall c d, hex_digit c d -> d < 10 -> written_in 10 [c] d) by (intros; constructor; assumption).
  repeat apply Forall2_cons; [..|apply Forall2_nil].
  - exists [Property (txt "branch_range") (quoted (txt "3..=7"))]. constructor; cbn [v_default v_disc v_value v_range v_bits v_name v_bytes d_attrs d_disc d_name sample_variant].
    + right. exists [], []. split; [intros a []|reflexivity].
    + reflexivity.
    + intros e [<-|[]]. cbn. do 12 right. left. reflexivity.
    + intros k lit [E|[]] _. injection E as <- <-. exists (txt "3..=7"). left. split; [reflexivity|]. cbn. intuition discriminate.
    + split; [discriminate|]. intros (i & [E|[]] & _). discriminate.
    + reflexivity.
    + left. repeat split. no_entry.
    + exists (txt "3..=7"). split.
      * apply (decided_by _ [] _ []); [|intros ? ? []]. exists (txt "branch_range"), (quoted (txt "3..=7")). split; [reflexivity|]. split; [left; reflexivity|].
        left. split; [reflexivity|]. cbn. intuition discriminate.
      * exists (txt "3"), (txt "7"). split; [reflexivity|]. split; [apply NL; [left; left; split; [|reflexivity]|]; lia|].
        split; [apply NL; [left; left; split; [|reflexivity]|]; lia|lia].
    + no_entry.
  - exists [Property (txt "branch_value") (txt "0x10")]. constructor; cbn [v_default v_disc v_value v_range v_bits v_name v_bytes d_attrs d_disc d_name sample_variant].
    + right. exists [mkattribute (txt "doc") []], []. split; [|reflexivity]. intros a [<-|[]] [X|[X|[]]]; discriminate X.
    + reflexivity.
    + intros e [<-|[]]. cbn. do 13 right. left. reflexivity.
    + intros k lit [E|[]] _. injection E as <- <-. exists (txt "0x10"). right. split; [reflexivity|]. split.
      * intros (l & r & E). assert (I : In (byte_of 92) (txt "0x10")) by (rewrite E; apply in_app_iff; right; left; reflexivity).
        cbn in I. intuition discriminate.
      * intros (r & E). discriminate E.
    + split; [discriminate|]. intros (i & [E|[]] & _). discriminate.
    + reflexivity.
    + right. exists (txt "0x10"). split.
      * apply (decided_by _ [] _ []); [|intros ? ? []]. exists (txt "branch_value"), (txt "0x10"). split; [reflexivity|]. split; [left; reflexivity|].
        right. split; [reflexivity|]. split.
        -- intros (l & r & E). assert (I : In (byte_of 92) (txt "0x10")) by (rewrite E; apply in_app_iff; right; left; reflexivity).
           cbn in I. intuition discriminate.
        -- intros (r & E). discriminate E.
      * left. exists 16. split; [|repeat split; lia]. right. exists (txt "10"). split; [reflexivity|].
        change 16 with (16 * 1 + 0) at 2. apply (written_more 16 ["1"%byte]); [constructor|..]; try lia; left; left; (split; [lia|reflexivity]).
    + no_entry.
    + no_entry.
  - exists []. constructor; cbn [v_default v_disc v_value v_range v_bits v_name v_bytes d_attrs d_disc d_name sample_variant].
    + left. split; [reflexivity|intros a []].
    + reflexivity.
    + intros e [].
    + intros k lit [].
    + split; [discriminate|]. intros (i & [] & _).
    + reflexivity.
    + left. repeat split. no_entry.
    + no_entry.
    + no_entry.
  - exists [Tag (txt "branch_default")]. constructor; cbn [v_default v_disc v_value v_range v_bits v_name v_bytes d_attrs d_disc d_name sample_variant].
    + right. exists [], []. split; [intros a []|reflexivity].
    + reflexivity.
    + intros e [<-|[]]. cbn. right. left. reflexivity.
    + intros k lit [E|[]]. discriminate E.
    + split; [|reflexivity]. intros _. exists (txt "branch_default"). split; [left; reflexivity|left; reflexivity].
    + reflexivity.
    + left. repeat split. no_entry.
    + no_entry.
    + no_entry.
Qed.
(** [#[jbytes(branch_starts_with)] enum { #[jbytes(branch_value = b"re")] A, B, #[jbytes(branch_default)] C }] *)
Definition sample_literal : bytes := "b"%byte :: quoted (txt "re").
Definition prefix_decls : list variant_decl :=
  [mkvariant [mkattribute (txt "jbytes") [Property (txt "branch_value") sample_literal]] (txt "a") None;
   mkvariant [] (txt "b") None;
   mkvariant [mkattribute (txt "jbytes") [Tag (txt "branch_default")]] (txt "c") None].
Definition prefix_variants : list vspec :=
  [mkvspec false plain (txt "a") None false None None (Some (txt "re")) None; sample_variant "b" None None false;
   sample_variant "c" None None true].
Example C64_chain_case : Forall2 (fun d v => exists l, declares sample_patterns d l v) prefix_decls prefix_variants /\
  chain_order prefix_variants /\ option_map (fun cs => grammatical (closed cs)) (conditions 0 prefix_decls) = Some true.
Proof.
  assert (BL : byte_string_literal sample_literal).
  { exists (txt "re"). split; [reflexivity|]. split; [unfold no_quotes; cbn; intuition discriminate|].
    intros t E. apply (f_equal (fun l => last l x00)) in E. rewrite last_last in E. discriminate E. }
  assert (LT : literal_text sample_literal sample_literal).
  { right. split; [reflexivity|]. split.
    - intros (l & r & E). assert (I : In (byte_of 92) sample_literal) by (rewrite E; apply in_app_iff; right; left; reflexivity).
      cbn in I. intuition discriminate.
    - intros (r & E). discriminate E. }
  split; [|split; [|reflexivity]].
  - repeat apply Forall2_cons; [..|apply Forall2_nil].
    + exists [Property (txt "branch_value") sample_literal]. constructor; cbn [v_default v_disc v_value v_range v_bits v_name v_bytes d_attrs d_disc d_name sample_variant].
      * right. exists [], []. split; [intros a []|reflexivity].
      * reflexivity.
      * intros e [<-|[]]. cbn. do 13 right. left. reflexivity.
      * intros k lit [E|[]] _. injection E as <- <-. exists sample_literal. exact LT.
      * split; [discriminate|]. intros (i & [E|[]] & _). discriminate.
      * reflexivity.
      * right. exists sample_literal. split.
        -- apply (decided_by _ [] _ []); [|intros ? ? []]. exists (txt "branch_value"), sample_literal. split; [reflexivity|]. split; [left; reflexivity|exact LT].
        -- right. split; [exact BL|]. split; [|split; reflexivity]. intros C.
           apply (contains_in _ _ "."%byte) in C; [|left; reflexivity]. cbn in C. intuition discriminate.
      * no_entry.
      * no_entry.
    + exists []. constructor; cbn [v_default v_disc v_value v_range v_bits v_name v_bytes d_attrs d_disc d_name sample_variant].
      * left. split; [reflexivity|intros a []].
      * reflexivity.
      * intros e [].
      * intros k lit [].
      * split; [discriminate|]. intros (i & [] & _).
      * reflexivity.
      * left. repeat split. no_entry.
      * no_entry.
      * no_entry.
    + exists [Tag (txt "branch_default")]. constructor; cbn [v_default v_disc v_value v_range v_bits v_name v_bytes d_attrs d_disc d_name sample_variant].
      * right. exists [], []. split; [intros a []|reflexivity].
      * reflexivity.
      * intros e [<-|[]]. cbn. right. left. reflexivity.
      * intros k lit [E|[]]. discriminate E.
      * split; [|reflexivity]. intros _. exists (txt "branch_default"). split; [left; reflexivity|left; reflexivity].
      * reflexivity.
      * left. repeat split. no_entry.
      * no_entry.
      * no_entry.
  - cbn. split; [reflexivity|]. split; [right; discriminate|]. split; [reflexivity|].
    intros [|[|[|i]]] w k X; try discriminate X; injection X as <- <-; cbn; (split; [intros; (reflexivity || discriminate)|]).
    + intros _ [G|G]; destruct G; reflexivity.
    + discriminate.
Qed.

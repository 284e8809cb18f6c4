(** Lemmas for C77. *)
From Coq Require Import Ascii String.
From Verif Require Import Base BaseLemmas Ints Reader Writer Sugar TextSpec Text AttrParse AttrSpec AttrLemmas EnumText EnumTextSpec GenExpr GenExprSpec
  GenExprLemmas PropsExpr PropsAttr EnumTextLemmas PropsEnumText GenDecode GenSpec GenEncode GenEncodeSpec PropsGen PropsGenEncode PropsVariantExpr
  EnumTextSpec Source SourceSpec SourceLemmas EnumSource EnumSourceSpec Decode Encode WireSpec Schema.
Close Scope string_scope.

(** ** The lines of a variant *)
Definition no_code (c : content) : Prop := match c with AttrParse.Value (AVar _) => False | _ => True end.
Lemma literal_put s c fa : no_code c -> literal_numbers fa = true -> literal_numbers (put s c fa) = true.
Proof.
  intros N H. unfold literal_numbers in *. rewrite forallb_forall in *. intros t Ht. specialize (H t Ht). cbn [put member].
  destruct (slot_beq s t); [|exact H]. destruct c as [|[]|]; auto; contradiction.
Qed.
Lemma literal_use b fa : literal_numbers fa = true -> literal_numbers (mkfields b (member fa)) = true.
Proof. intros H. exact H. Qed.
Lemma denotes_literal m k lit e : called k number_keys -> no_expression (Property k lit) -> denotes m lit e -> no_code (AttrParse.Value (parse_usize lit)).
Proof.
  intros K N D. revert N. destruct D as [lit s n E W L|lit s Q X]; intros N.
  - now rewrite (parse_number _ _ _ E W L).
  - destruct (N _ _ s eq_refl Q) as [H _]. elim (H K X).
Qed.
Lemma entry_literal m e g fa fa' : says m e g -> no_expression e -> literal_numbers fa = true ->
  field_entry fa e = Some fa' -> literal_numbers fa' = true.
Proof.
  intros S N L H.
  assert (K : match e with
              | Tag _ => True
              | Property k lit => forall rk s, assoc k field_properties = Some (rk, s) -> no_code (read_literal rk lit)
              end).
  { destruct S; try exact Logic.I.
    all: try match goal with D : denotes _ _ _ |- _ =>
      apply denotes_literal with (k := k) in D; [|eapply called_sub; [eassumption|intros ?; cbn; tauto]|exact N] end.
    all: repeat match goal with
      | K : called _ [_] |- _ => apply called_one in K; subst
      | K : called ?k [_; _] |- _ => apply called_two in K as [-> | ->]
      end; intros rk sl E; vm_compute in E; injection E as <- <-; cbn [read_literal]; try exact Logic.I; try assumption.
    - match goal with C : called _ ["BE"; ">"; "0"]%string |- _ => now destruct (order_word _ Be C) as [-> _] end.
    - match goal with C : called _ ["LE"; "<"; "1"]%string |- _ => now destruct (order_word _ Le C) as [-> _] end.
    - match goal with Q : string_literal _ _ |- _ => destruct (N _ _ _ eq_refl Q) as [_ X] end.
      match goal with Y : ~ called _ _ |- _ => elim Y; apply X; left; reflexivity end.
    - match goal with E : _ = ?s \/ _ = quoted ?s, X : numeral ?s _, L : _ < 2 ^ 64 |- _ => now rewrite (parse_number _ _ _ E X L) end. }
  destruct e as [i|k lit]; cbn [field_entry] in H.
  - destruct (assoc i field_tags) as [s|]; [|discriminate]. injection H as <-. now apply literal_put.
  - destruct (assoc k field_properties) as [[rk s]|] eqn:E; [|discriminate]. cbn [option_map] in H. injection H as <-.
    specialize (K rk s eq_refl). destruct (bytes_eqb k (txt "bits_start")); repeat apply literal_put; auto; exact Logic.I.
Qed.
Lemma variant_entry_read m e g fa : variant_entry m e g -> literal_numbers fa = true ->
  exists fa', field_entry (mkfields true (member fa)) e = Some fa' /\ field_spec m fa' = g (field_spec m fa) /\ literal_numbers fa' = true.
Proof.
  intros [e' g' S N|e' H] L.
  - destruct (entry_says m _ _ fa S) as (fa' & E & F). exists fa'. split; [exact E|]. split; [exact F|].
    eapply entry_literal; [exact S|exact N| |exact E]. exact L.
  - destruct e' as [i|k lit]; cbn [about_variant] in H.
    + apply called_two in H as [-> | ->]; (eexists; split; [reflexivity|]; split; [reflexivity|]); now apply literal_put.
    + unfold called in H. cbn [map In] in H. destruct H as [<-|[<-|[<-|[<-|[]]]]];
        (eexists; split; [reflexivity|]; split; [reflexivity|]); (apply literal_put; [exact Logic.I|exact L]).
Qed.
Lemma variant_entries_read m l : forall gs, Forall2 (variant_entry m) l gs ->
  exists fa, attributes_of [jbytes_line l] = Some fa /\ field_spec m fa = fold_left (fun f g => g f) gs plain /\ literal_numbers fa = true.
Proof.
  induction l as [|e l IH] using rev_ind; intros gs H.
  - inversion H; subst. exists default_fields. repeat split; reflexivity.
  - apply Forall2_app_inv_l in H as (gs1 & gs2 & H1 & H2 & ->). inversion H2 as [|? g ? ? S N]; subst. inversion N; subst.
    destruct (IH _ H1) as (fa & P & E & L). destruct (variant_entry_read m e g fa S L) as (fa' & P' & E' & L').
    exists fa'. rewrite (line_snoc _ _ _ P). split; [exact P'|]. split; [|exact L']. rewrite fold_left_app, E', E. reflexivity.
Qed.
Lemma variant_line pm d l v : declares pm d l v -> attributes_of (d_attrs d) = attributes_of [jbytes_line l].
Proof.
  intros D. destruct (dl_line _ _ _ _ D) as [[-> N]|(before & more & N & ->)].
  - rewrite <- (app_nil_r (d_attrs d)), (other_lines _ [] N). reflexivity.
  - rewrite (other_lines _ _ N). change (mkattribute (list_byte_of_string "jbytes") l) with (jbytes_line l). now rewrite !line_parsed.
Qed.
Lemma own_read pm m d l v gs : declares pm d l v -> Forall2 (variant_entry m) l gs -> v_attr v = fold_left (fun f g => g f) gs plain ->
  exists fa, attributes_of (d_attrs d) = Some fa /\ read_variant pm fa d v /\ field_spec m fa = v_attr v /\ literal_numbers fa = true.
Proof.
  intros D F E. destruct (variant_read _ _ _ _ D) as (fa & P & R). destruct (variant_entries_read _ _ _ F) as (fa' & P' & S & L).
  rewrite (variant_line _ _ _ _ D), P' in P. injection P as ->. exists fa. rewrite (variant_line _ _ _ _ D). repeat split; auto; try apply R. congruence.
Qed.

(** ** The lines of the enum *)
Lemma enum_container_parsed lines e l :
  first_line ["jbytes"; "repr"]%string lines l -> Forall container_entry l ->
  decided about_order l (c_order (e_c e)) -> decided about_width l (c_byte_count (e_c e)) ->
  (e_no_tag e = true <-> tagged l "byte_count_disable") -> announced l (e_branching e) ->
  ~ (tagged l "branch_starts_with" /\ tagged l "branch_starts_with_untake") ->
  exists ca, container_attributes_of lines = Some ca /\
    match (if container_used lines then Some (container_spec ca) else None) with Some c => c | None => no_cspec end = e_c e /\
    mkespec (container_spec ca) (decoder_branching ca) (ca_disable ca) = e /\
    mkespec (container_spec ca) (encoder_branching ca) (ca_disable ca) = e.
Proof.
  intros H HE HO HW HT HB HN. destruct (container_parsed _ _ _ H HE HO HW) as (ca & EC & EU).
  exists ca. split; [exact EC|]. split; [exact EU|].
  destruct H as [(before & a & more & -> & T & <- & N)|[-> N]].
  - destruct (C63_container before a more N T HE) as (ca' & EC' & DO & DW & DT & DB & DS). rewrite EC' in EC. injection EC as ->.
    destruct (C63_determined (t_entries a)) as (XO & XW & XB). destruct (DS HN) as [_ E1].
    assert (E2 : decoder_branching ca = e_branching e) by (eapply XB; eassumption).
    assert (E3 : container_spec ca = e_c e).
    { change (e_c (enum_spec ca)) with (container_spec ca) in *. pose proof (XO _ _ DO HO) as A1. pose proof (XW _ _ DW HW) as A2.
      destruct (container_spec ca), (e_c e). cbn in *. congruence. }
    assert (E4 : ca_disable ca = e_no_tag e).
    { change (e_no_tag (enum_spec ca)) with (ca_disable ca) in DT. rewrite <- HT in DT. destruct (ca_disable ca), (e_no_tag e); intuition congruence. }
    rewrite E1, E2, E3, E4. destruct e; split; reflexivity.
  - destruct (C63_no_line lines N) as (ca' & EC' & ES & ED & EE). rewrite EC' in EC. injection EC as ->.
    rewrite ED, EE.
    assert (ES1 : container_spec ca = mkcspec None None) by exact (f_equal e_c ES).
    assert (ES2 : ca_disable ca = false) by exact (f_equal e_no_tag ES). rewrite ES1, ES2. apply decided_nil in HO. apply decided_nil in HW.
    assert (B : e_branching e = ByTag).
    { inversion HB as [X|X|n X Y D|]; try (destruct X; fail); [|reflexivity]. apply decided_nil in D. discriminate. }
    assert (D : e_no_tag e = false) by (destruct (e_no_tag e); [destruct (proj1 HT eq_refl)|reflexivity]).
    destruct e as [[o n] b t]. cbn in *. subst. split; reflexivity.
Qed.
Lemma enum_container_read lines e l :
  first_line ["jbytes"; "repr"]%string lines l -> Forall container_entry l -> Forall own_codec l ->
  decided about_order l (c_order (e_c e)) -> decided about_width l (c_byte_count (e_c e)) ->
  (e_no_tag e = true <-> tagged l "byte_count_disable") -> announced l (e_branching e) ->
  ~ (tagged l "branch_starts_with" /\ tagged l "branch_starts_with_untake") ->
  exists ca, container_attributes_of lines = Some ca /\ container_other lines = false /\
    match (if container_used lines then Some (container_spec ca) else None) with Some c => c | None => no_cspec end = e_c e /\
    mkespec (container_spec ca) (decoder_branching ca) (ca_disable ca) = e /\
    mkespec (container_spec ca) (encoder_branching ca) (ca_disable ca) = e.
Proof.
  intros H HE HP HO HW HT HB HN. destruct (container_read lines (e_c e)) as (_ & _ & EO & _); [exists l; auto|].
  destruct (enum_container_parsed _ _ _ H HE HO HW HT HB HN) as (ca & X). exists ca. tauto.
Qed.

(** ** Names of fields *)
Lemma tuple_own i : own_name (tuple_name i) /\ ~ In (tuple_name i) tag_names.
Proof.
  unfold tuple_name. split; [split|].
  - intros H. cbn in H. repeat (destruct H as [H|H]; [discriminate H|]). destruct H.
  - eexists _, _. split; [reflexivity|]. cbv. intuition discriminate.
  - intros H. cbn in H. repeat (destruct H as [H|H]; [discriminate H|]). destruct H.
Qed.
Lemma variant_names pm numbers x v fs : variant_means pm numbers x v fs ->
  NoDup (map s_name (x_fields x)) /\ forall y, In y (map s_name (x_fields x)) -> own_name y /\ ~ In y tag_names.
Proof.
  intros H. pose proof (vs_names _ _ _ _ _ H) as N. destruct (x_named x).
  - destruct N as [D O]. split; [exact D|]. intros y Hy. apply in_map_iff in Hy as (f & <- & Hf). now apply O.
  - destruct N as [L T]. split.
    + destruct (C65_numbers (map (fun f => mkfield (s_name f) plain (s_type f)) (x_fields x))) as [D _].
      * intros i f Hf. rewrite nth_error_map in Hf. destruct (nth_error (x_fields x) i) as [g|] eqn:E; [|discriminate].
        injection Hf as <-. exact (T i g E).
      * rewrite map_length. exact L.
      * rewrite map_map in D. exact D.
    + intros y Hy. apply in_map_iff in Hy as (f & <- & Hf). apply In_nth_error in Hf as (i & Hi). rewrite (T i f Hi). apply tuple_own.
Qed.

(** ** The arms of the decoder *)
Record arm_for (pm : patterns) (a : code_arm) (x : source_variant) (vf : vspec * list (fspec * ty)) : Prop := mkarm_for {
  af_read : read_variant pm (i_attrs a) (variant_of x) (fst vf);
  af_own : i_own a = v_attr (fst vf);
  af_name : p_bytes pm ("b"%byte :: QUOTE :: i_name a ++ [QUOTE]) = v_name (fst vf);
  af_named : i_named a = v_named (fst vf) }.
Record decoder_arm (pm : patterns) (a : code_arm) (x : source_variant) (vf : vspec * list (fspec * ty)) : Prop := mkdecoder_arm {
  da_arm : arm_for pm a x vf;
  da_fields : nameless (i_fields a) = snd vf;
  da_compiles : forall c vars, arm_compiles (i_named a) c vars (i_own a) (i_fields a) = true;
  da_position : ~ position_taken (i_fields a) }.
Lemma decoder_arms_read pm numbers xs vs : Forall2 (fun x vf => variant_means pm numbers x (fst vf) (snd vf)) xs vs ->
  exists arms, read_arms (fun x => read_fields numbers [] (x_fields x)) xs = Some arms /\
    Forall2 (fun a vf => exists x, decoder_arm pm a x vf) arms vs.
Proof.
  intros F. induction F as [|x [v fs] xs vs H F (arms & R & G)]; [exists []; split; [reflexivity|constructor]|].
  cbn [fst snd] in H. destruct (vs_entries _ _ _ _ _ H) as (l & gs & D & E & AT).
  destruct (own_read _ _ _ _ _ _ D E AT) as (fa & P & RV & S & L).
  destruct (fields_read numbers [] (x_fields x) fs (vs_fields _ _ _ _ _ H)) as (out & RF & ET & EN & EV).
  destruct (variant_names _ _ _ _ _ H) as [ND OW].
  change (d_attrs (variant_of x)) with (x_lines x) in P.
  exists (mkarm fa (v_attr v) (x_name x) (x_named x) out :: arms). split.
  - cbn [read_arms]. rewrite P, RF, R, L, S. reflexivity.
  - constructor; [|exact G]. exists x. constructor; cbn [i_attrs i_own i_name i_named i_fields fst snd].
    + constructor; cbn [i_attrs i_own i_name i_named fst]; auto; [exact (dl_name _ _ _ _ D)|]. now rewrite (vs_named _ _ _ _ _ H).
    + exact ET.
    + intros c vars. apply C65_arm_compiles; [now rewrite EN| |intros _; exact EV].
      intros f Hf Hr. destruct (OW (n_name f)) as [[N _] _]; [rewrite <- EN; now apply in_map|]. apply N. revert Hr. apply incl_map. intros y. cbn. tauto.
    + intros (i & j & f & h & _ & Hi & _ & (Hx & _) & _). apply nth_error_In in Hi.
      destruct (OW (n_name f)) as [[N _] _]; [rewrite <- EN; now apply in_map|]. apply N. rewrite Hx. cbn. tauto.
Qed.
Lemma prefix_read pm a x vf : arm_for pm a x vf -> v_value (fst vf) = None ->
  p_bytes pm (prefix_text a) = literal (fst vf) /\ is_byte_string (prefix_text a) = true.
Proof.
  intros [R _ EN _] V. unfold prefix_text, literal.
  destruct (rv_value _ _ _ _ R) as [(-> & _ & ->)|(s & -> & [(n & _ & _ & X & _)|((t & -> & _) & _ & _ & ->)])].
  - split; [exact EN|reflexivity].
  - congruence.
  - split; reflexivity.
Qed.

(** ** Choosing an arm *)
Lemma dec_arms_at dty hit eat nomatch ca vars vs : forall i next dt p,
  dec_arms dty hit eat nomatch ca vars vs i next dt p =
  match first_such (fun vn => hit (fst vn) (snd vn)) (combine (map fst vs) (numbering next (map fst vs))) with
  | None => fail nomatch dt p
  | Some j =>
      match nth_error vs j with
      | None => fail nomatch dt p
      | Some (v, fs) =>
          (_ <- advance (eat v) ;;
           match modifiers (v_attr v) (mkenv [] vars) with
           | None => panic
           | Some prev =>
               _ <- dec_offset (f_offset (v_attr v)) (mkenv [] vars) ;;
               xs <- dec_fields dty (negb (v_named v)) vars fs ca prev [] ;;
               ret (VVariant (i + j) xs)
           end) dt p
      end
  end.
Proof.
  induction vs as [|[v fs] vs IH]; intros i next dt p; [reflexivity|]. cbn [dec_arms map fst numbering combine first_such snd].
  change (match v_disc v with Some n => n | None => match v_range v with Some (_, hi, _) => hi | None => match v_value v with Some n => n | None => next end end end) with (variant_index v next).
  destruct (hit v _) eqn:E.
  - cbn [nth_error]. now rewrite Nat.add_0_r.
  - fold (dec_arms dty hit eat nomatch ca vars). rewrite IH.
    match goal with |- _ = match option_map _ ?o with _ => _ end => destruct o as [j|] end; cbn [option_map]; [|reflexivity].
    cbn [nth_error]. now replace (Datatypes.S i + j)%nat with (i + Datatypes.S j)%nat by lia.
Qed.
Lemma first_true_map {X} (f : X -> bool) l : first_true (map f l) = first_such f l.
Proof. induction l as [|a l IH]; [reflexivity|]. cbn. now rewrite IH. Qed.
Lemma same_choice {X Y} (R : X -> Y * list (fspec * ty) -> Prop) (P : X * N -> bool) (Q : Y * N -> bool) xs vs : Forall2 R xs vs ->
  (forall a vf n, In vf vs -> R a vf -> P (a, n) = Q (fst vf, n)) ->
  forall ns, first_true (map P (combine xs ns)) = first_such Q (combine (map fst vs) ns).
Proof.
  intros F. induction F as [|a vf xs vs H F IH]; intros E ns; [reflexivity|]. destruct ns as [|n ns]; [reflexivity|].
  cbn [combine map first_true first_such]. rewrite (E a vf n (or_introl eq_refl) H), IH; [reflexivity|]. intros a' vf' n' Hi. apply E. now right.
Qed.
Lemma choice_alone {Y} (h : Y -> bool) l : forall ns : list N, length ns = length l ->
  first_such (fun vn => h (fst vn)) (combine l ns) = first_such h l.
Proof.
  induction l as [|v l IH]; intros [|n ns] L; try discriminate; [reflexivity|]. cbn. rewrite IH by (injection L; auto). reflexivity.
Qed.
Lemma chosen_same pm d e vs vars eat eat' nomatch :
  Forall2 (fun a vf => exists x, decoder_arm pm a x vf) (r_arms d) vs ->
  match r_container d with Some c => c | None => no_cspec end = e_c e ->
  (forall a x vf, In vf vs -> arm_for pm a x vf -> eat a = eat' (fst vf)) ->
  forall choice dt p, run_chosen d vars eat nomatch choice dt p =
  match choice with
  | None => fail nomatch dt p
  | Some j =>
      match nth_error vs j with
      | None => fail nomatch dt p
      | Some (v, fs) =>
          (_ <- advance (eat' v) ;;
           match modifiers (v_attr v) (mkenv [] vars) with
           | None => panic
           | Some prev =>
               _ <- dec_offset (f_offset (v_attr v)) (mkenv [] vars) ;;
               xs <- dec_fields dec (negb (v_named v)) vars fs (own_cattr (e_c e)) prev [] ;;
               ret (VVariant j xs)
           end) dt p
      end
  end.
Proof.
  intros F C E choice dt p. unfold run_chosen. destruct choice as [j|]; [|reflexivity].
  assert (X : match nth_error (r_arms d) j, nth_error vs j with
              | Some a, Some vf => In vf vs /\ exists x, decoder_arm pm a x vf
              | None, None => True
              | _, _ => False
              end).
  { clear - F. revert j. induction F as [|a vf arms vs H F IH]; intros [|j]; cbn; auto. specialize (IH j).
    destruct (nth_error arms j), (nth_error vs j); auto. destruct IH; auto. }
  destruct (nth_error (r_arms d) j) as [a|], (nth_error vs j) as [[v fs]|]; try contradiction; [|reflexivity].
  destruct X as (Hi & x & [H EF K P]). cbn [snd fst] in *. rewrite (E a x (v, fs) Hi H). cbn [fst]. destruct H as [_ EO _ EN]. cbn [fst] in *.
  unfold Reader.bind at 1 3. destruct (advance (eat' v) dt p) as [u q|k q| |]; try reflexivity. unfold Reader.bind at 1.
  rewrite (C65_arm (i_named a) (r_container d) vars (i_own a) (i_fields a) (own_cattr (e_c e)) dt q); [|now rewrite C|apply K|exact P].
  rewrite EO, EN, EF. destruct (modifiers (v_attr v) (mkenv [] vars)) as [prev|]; [|reflexivity].
  unfold Reader.bind. destruct (dec_offset _ _ dt q) as [u' q'|k q'| |]; try reflexivity.
Qed.
Lemma decimal_no_bytes s n : written_in 10 s n -> is_byte_string s = false /\ exists c t, s = c :: t.
Proof.
  intros H. assert (X : exists c t d, s = c :: t /\ hex_digit c d /\ d < 10).
  { induction H as [c d H L|s n c d H (c' & t & d' & -> & X & Y) _ _]; [now exists c, [], d|]. now exists c', (t ++ [c]), d'. }
  destruct X as (c & t & d & -> & D & L). split; [|eauto]. cbn [is_byte_string]. destruct (Byte.eqb c "b") eqn:E.
  - apply Byte.byte_dec_bl in E. subst c. exfalso. unfold hex_digit, lower_digit, upper_digit in D.
    assert (X : "b"%byte = SpecOps.byte_of (48 + d)) by (destruct D as [[[_ X]|[X _]]|[[_ X]|[X _]]]; [exact X|lia|exact X|lia]). clear D.
    assert (Y : d = 0 \/ d = 1 \/ d = 2 \/ d = 3 \/ d = 4 \/ d = 5 \/ d = 6 \/ d = 7 \/ d = 8 \/ d = 9) by lia.
    repeat (destruct Y as [-> |Y]; [discriminate X|]). subst d. discriminate X.
  - destruct c; try reflexivity. discriminate E.
Qed.
Lemma numeral_no_bytes s n : numeral s n -> is_byte_string s = false.
Proof. intros [H|(t & -> & _)]; [apply (decimal_no_bytes _ _ H)|reflexivity]. Qed.
Lemma range_no_bytes s lo hi incl : range_text s lo hi incl -> is_byte_string s = false.
Proof. intros (a & b & -> & W & _). destruct (decimal_no_bytes _ _ W) as (E & c & t & ->). exact E. Qed.
Lemma arms_length pm arms vs : Forall2 (fun a vf => exists x, decoder_arm pm a x vf) arms vs -> length arms = length vs.
Proof. intros F. induction F; cbn; auto. Qed.
Lemma forall_combine {X Y} (R : X -> Y -> Prop) (P : X * N -> bool) xs ys : Forall2 R xs ys ->
  (forall x y n, In y ys -> R x y -> P (x, n) = true) -> forall ns, forallb P (combine xs ns) = true.
Proof.
  intros F. induction F as [|x y xs ys H F IH]; intros E [|n ns]; try reflexivity. cbn [combine forallb].
  rewrite (E x y n (or_introl eq_refl) H), IH; [reflexivity|]. intros x' y' n' Hi. apply E. now right.
Qed.
Lemma forall_arms {X Y} (R : X -> Y -> Prop) (P : X -> bool) xs ys : Forall2 R xs ys ->
  (forall x y, In y ys -> R x y -> P x = true) -> forallb P xs = true.
Proof.
  intros F. induction F as [|x y xs ys H F IH]; intros E; [reflexivity|]. cbn [forallb].
  rewrite (E x y (or_introl eq_refl) H), IH; [reflexivity|]. intros x' y' Hi. apply E. now right.
Qed.
Lemma declarations pm numbers xs vs : Forall2 (fun x vf => variant_means pm numbers x (fst vf) (snd vf)) xs vs ->
  Forall2 (fun d v => exists l, declares pm d l v) (map variant_of xs) (map fst vs).
Proof.
  intros F. induction F as [|x vf xs vs H F IH]; [constructor|]. cbn [map]. constructor; [|exact IH].
  destruct (vs_entries _ _ _ _ _ H) as (l & gs & D & _). now exists l.
Qed.
Lemma first_such_ext {X} (f g : X -> bool) l : (forall x, In x l -> f x = g x) -> first_such f l = first_such g l.
Proof. induction l as [|x l IH]; intros E; [reflexivity|]. cbn. rewrite (E x (or_introl eq_refl)), IH; [reflexivity|]. intros y Hy. apply E. now right. Qed.

Lemma decoder_means own pm numbers s e vs : reads_numbers pm -> enum_means own pm numbers s e vs ->
  exists d, enum_decoder_with numbers s = Some d /\ (forall vars, enum_decoder_compiles pm d vars = true) /\
    forall ca fa dt p, run_enum_decoder pm d ca fa dt p = dec (TEnum e vs) ca fa dt p.
Proof.
  intros PM [(l & C1 & C2 & C3 & C4 & C5 & C6 & C7 & C8) NE F B].
  destruct (enum_container_parsed _ e l C1 C2 C4 C5 C6 C7 C8) as (ca & EC & EU & ED & _).
  destruct (decoder_arms_read _ _ _ _ F) as (arms & RA & G).
  pose proof (declarations _ _ _ _ F) as DS. pose proof (C64_numbers _ _ _ DS) as EN.
  destruct (conditions_read pm _ _ DS 0) as (cs & CC & CF).
  set (d := mkdecoder (if container_used (g_container s) then Some (container_spec ca) else None) e arms (numbering 0 (map fst vs)) cs).
  exists d. split; [|split].
  - unfold enum_decoder_with. rewrite EC, RA, EN, CC, ED. reflexivity.
  - intros vars. unfold enum_decoder_compiles. cbn [d r_arms r_container r_spec r_numbers r_conditions].
    rewrite !andb_true_iff. split; [split|].
    + destruct G; [congruence|reflexivity].
    + apply (forall_arms _ _ _ _ G). intros a vf _ (x & H). apply (da_compiles _ _ _ _ H).
    + destruct (e_branching e) as [| | |n].
      * apply (forall_combine _ _ _ _ G). intros a vf n Hi (x & [[R _ _ _] _ _ _]). cbn [fst snd]. unfold arm_of. specialize (B vf Hi).
        destruct (given_flag _); [reflexivity|]. destruct (raw (member (i_attrs a) SBranchBits)); [reflexivity|].
        destruct (rv_value _ _ _ _ R) as [(-> & _ & _)|(t & -> & [(k & H & _)|(_ & _ & _ & X)])]; [| |congruence].
        -- pose proof (rv_range _ _ _ _ R) as RR. destruct (v_range (fst vf)) as [[[lo hi] incl]|].
           ++ destruct RR as (t & -> & RT). now rewrite (range_no_bytes _ _ _ _ RT).
           ++ now rewrite RR.
        -- now rewrite (numeral_no_bytes _ _ H).
      * destruct B as [V CO]. rewrite andb_true_iff. split; [now apply (chain_grammar pm cs (map fst vs) CF)|].
        apply (forall_arms _ _ _ _ G). intros a vf Hi (x & [H _ _ _]). destruct (prefix_read _ _ _ _ H (V vf Hi)) as [_ ->]. apply orb_true_r.
      * destruct B as [V CO]. rewrite andb_true_iff. split; [now apply (chain_grammar pm cs (map fst vs) CF)|].
        apply (forall_arms _ _ _ _ G). intros a vf Hi (x & [H _ _ _]). destruct (prefix_read _ _ _ _ H (V vf Hi)) as [_ ->]. apply orb_true_r.
      * apply (forall_combine _ _ _ _ G). intros a vf k Hi (x & [[R _ _ _] _ _ _]). cbn [fst snd]. destruct (B vf Hi) as (_ & X & Y).
        now rewrite (arm_bytes _ _ _ _ k [] R X Y).
  - intros cattr fa dt p. cbn [dec]. destruct vs as [|v0 vs0]; [congruence|]. set (vs := v0 :: vs0) in *.
    unfold run_enum_decoder. cbn [d r_arms r_container r_spec r_numbers r_conditions].
    destruct (e_branching e) as [| | |n] eqn:EB.
    + unfold Reader.bind at 1 2. destruct (enum_tag e cattr fa dt p) as [tag q|k q| |]; try reflexivity.
      rewrite dec_arms_at. rewrite (chosen_same pm d e vs (k_vars cattr) (fun _ => 0) (fun _ => 0)); [|exact G|exact EU|reflexivity].
      rewrite (same_choice (fun a vf => exists x, decoder_arm pm a x vf) _ (fun vn => arm_matches (fst vn) (snd vn) tag) _ _ G); [reflexivity|].
      intros a vf n Hi (x & [[R _ _ _] _ _ _]). cbn [fst snd]. rewrite (arm_read _ _ _ _ n tag PM R (B vf Hi)). unfold accepts, arm_matches.
      destruct (v_default _); [reflexivity|]. destruct (v_bits _) as [[]|]; [reflexivity|]. destruct (v_value _); [reflexivity|].
      destruct (v_range _) as [[[? ?] []]|]; reflexivity.
    + destruct B as [V CO]. rewrite dec_arms_at.
      rewrite (chosen_same pm d e vs (k_vars cattr) _ (fun v => if v_default v then 0 else lenN (variant_bytes v))); [|exact G|exact EU|].
      2:{ intros a x vf Hi H. destruct (prefix_read _ _ _ _ H (V vf Hi)) as [-> _]. unfold default_arm.
          rewrite (rv_default _ _ _ _ (af_read _ _ _ _ H)). reflexivity. }
      rewrite (chain_choice pm cs (map fst vs) (numbering 0 (map fst vs)) (remaining dt p)); [|apply Forall_map, Forall_forall; exact V|now rewrite numbering_length|exact CF].
      rewrite (choice_alone (fun v => v_default v || starts_with (variant_bytes v) (remaining dt p))) by apply numbering_length.
      change variant_bytes with literal. destruct (first_such _ _); [reflexivity|].
      rewrite (proj2 (nth_error_None vs (length (map fst vs)))) by now rewrite map_length. reflexivity.
    + destruct B as [V CO]. rewrite dec_arms_at.
      rewrite (chosen_same pm d e vs (k_vars cattr) _ (fun v => 0)); [|exact G|exact EU|reflexivity].
      rewrite (chain_choice pm cs (map fst vs) (numbering 0 (map fst vs)) (remaining dt p)); [|apply Forall_map, Forall_forall; exact V|now rewrite numbering_length|exact CF].
      rewrite (choice_alone (fun v => v_default v || starts_with (variant_bytes v) (remaining dt p))) by apply numbering_length.
      change variant_bytes with literal. destruct (first_such _ _); [reflexivity|].
      rewrite (proj2 (nth_error_None vs (length (map fst vs)))) by now rewrite map_length. reflexivity.
    + unfold Reader.bind at 1 2. destruct (take_bytes n dt p) as [value q|k q| |]; try reflexivity.
      rewrite dec_arms_at. rewrite (chosen_same pm d e vs (k_vars cattr) (fun _ => 0) (fun _ => 0)); [|exact G|exact EU|reflexivity].
      rewrite (same_choice (fun a vf => exists x, decoder_arm pm a x vf) _ (fun vn => v_default (fst vn) || bytes_eqb value (variant_bytes (fst vn))) _ _ G); [reflexivity|].
      intros a vf k Hi (x & [[R _ _ _] _ _ _]). cbn [fst snd]. destruct (B vf Hi) as (_ & X & Y).
      now rewrite (arm_bytes _ _ _ _ k value R X Y).
Qed.
Lemma decoder_same pm A others s e vs : reads_numbers pm -> enum_says pm A others s e vs ->
  exists d, derived_enum_decoder A others s = Some d /\ (forall vars, enum_decoder_compiles pm d vars = true) /\
    forall ca fa dt p, run_enum_decoder pm d ca fa dt p = dec (TEnum e vs) ca fa dt p.
Proof.
  intros PM H. destruct (decoder_means _ _ _ _ _ _ PM H) as (d & X). exists d. unfold derived_enum_decoder.
  destruct H as [(l & C1 & C2 & C3 & C4 & C5 & C6 & C7 & C8) _ _ _].
  destruct (enum_container_read _ e l C1 C2 C3 C4 C5 C6 C7 C8) as (ca & _ & EO & _). now rewrite EO.
Qed.

(** ** Expressions in the encoder of a variant *)
Section Expressions.
Variables (A : arithmetic val) (others : bytes -> option val) (names : list bytes) (vs : list val).
Hypotheses (HD : NoDup names) (HL : length vs = length names) (HO : forall x, In x names -> others x = None).
Lemma bound_number text i vars t v z : let before := combine (firstn i names) (firstn i vs) in
  reads_as Disjunction text t -> plain_expr t -> eval A (decoder_scope before others) t = Some v ->
  a_cast A (list_byte_of_string "usize") v = Some (VInt z) ->
  decoder_number A others var_code (firstn i names) text (mkenv (firstn i vs) vars) = z /\
  (name_first names text -> forall en, variant_number A others star_code names vs text en = z) /\
  ((forall x, In x names -> t <> EName x) -> forall en, variant_number A others (var_code false) names vs text en = z).
Proof.
  intros before R P E C.
  assert (EC : combine names vs = before ++ combine (skipn i names) (skipn i vs)) by apply combine_split.
  assert (F : map fst (combine names vs) = names) by (apply map_fst_combine; lia). rewrite EC in F.
  assert (X : code_value A (decoder_scope before others) (var_code false text) = Some (VInt z)).
  { rewrite (C66_text _ _ _ _ _ (var_reads _ _ R)). cbn [eval]. rewrite E. exact C. }
  split; [|split].
  - apply numbers_agree. exists t, v. auto.
  - intros NF en. unfold variant_number. rewrite EC.
    destruct (C70_named _ A before (combine (skipn i names) (skipn i vs)) others text t (VInt z)) as [[_ ->]|[N _]]; rewrite ?F; auto.
    elim N. now rewrite F.
  - intros NF en. unfold variant_number. rewrite EC.
    destruct (C70_tuple _ A before (combine (skipn i names) (skipn i vs)) others text t (VInt z)) as [[(x & Hx & Ex) _]|[_ ->]]; rewrite ?F; auto.
    rewrite F in Hx. elim (NF x Hx Ex).
Qed.
Lemma bound_order text i vars t v z : let before := combine (firstn i names) (firstn i vs) in
  reads_as Cast text t -> plain_expr t -> eval A (decoder_scope before others) t = Some v ->
  a_cast A (list_byte_of_string "isize") v = Some (VInt z) -> (forall x, In x names -> t <> EName x) ->
  decoder_number A others GenExpr.order_code (firstn i names) text (mkenv (firstn i vs) vars) = z /\
  forall en, variant_number A others (GenExpr.order_code false) names vs text en = z.
Proof.
  intros before R P E C N.
  assert (EC : combine names vs = before ++ combine (skipn i names) (skipn i vs)) by apply combine_split.
  assert (F : map fst (combine names vs) = names) by (apply map_fst_combine; lia). rewrite EC in F.
  split.
  - apply orders_agree. exists t, v. auto.
  - intros en. unfold variant_number. rewrite EC, (C66_text _ _ _ _ _ (order_reads _ _ R)). cbn [eval].
    destruct (variant_eval A before (combine (skipn i names) (skipn i vs)) others) with (e := t) (v := v) as [[(x & Ex & Hx) _]|[_ ->]]; rewrite ?F; auto.
    + rewrite F in Hx. elim (N x Hx Ex).
    + cbn [with_references a_cast]. change (txt "isize") with (list_byte_of_string "isize"). now rewrite C.
Qed.
End Expressions.

(** ** Entries in the encoder of a variant *)
Definition alike_rest (en : env) (f g : fspec) : Prop := alike en f (with_offset (f_offset f) g).
Definition bound_ok (M M' M'' : meaning) (en : env) (e : entry) : Prop :=
  match e with
  | Tag _ => True
  | Property k lit => forall s, string_literal lit s ->
      (called k number_keys -> ~ called k ["offset"%string] -> expression s -> m_number M s en = m_number M' s en) /\
      (called k ["offset"%string] -> expression s -> m_number M s en = m_number M'' s en) /\
      (called k ["byteorder"%string] -> ~ called s ["BE"; ">"; "0"; "LE"; "<"; "1"]%string -> m_order M s en = m_order M' s en)
  end.
Ltac finish_rest := let H := fresh in intros _ ? ? H; unfold alike_rest in *; destruct H; constructor; cbn in *; auto.
Ltac number_rest :=
  let B := fresh in let AL := fresh in intros B ? ? AL;
  match goal with
  | K : called ?k _, E : bound_ok _ _ _ _ _ -> ~ called ?k _ -> _ |- _ =>
      specialize (E B); unfold called in K, E; cbn [map In] in K;
      repeat (destruct K as [K|K]; [subst k|]); try contradiction;
      (specialize (E ltac:(let X := fresh in intros [X|[]]; discriminate X)))
  end; unfold alike_rest in *; destruct AL; constructor; cbn in *; auto.
Lemma says_rest N O N' O' M'' m en e g :
  let M := with_numbers N O m in let M' := with_numbers N' O' m in
  says M e g ->
  exists g', says M' e g' /\ (bound_ok M M' M'' en e -> forall f f', alike_rest en f f' -> alike_rest en (g f) (g' f')).
Proof.
  cbv zeta. intros S.
  assert (D : forall k lit x, e = Property k lit -> called k number_keys -> denotes (with_numbers N O m) lit x ->
                exists x', denotes (with_numbers N' O' m) lit x' /\
                  (bound_ok (with_numbers N O m) (with_numbers N' O' m) M'' en e -> ~ called k ["offset"%string] -> x en = x' en)).
  { intros k lit x -> K H. destruct H as [lit s n Q W L|lit s Q X]; eexists; split.
    - eapply denotes_number; eassumption.
    - reflexivity.
    - eapply denotes_expression; eassumption.
    - intros B NO. apply (proj1 (B _ Q)); assumption. }
  destruct S.
  all: try match goal with H : denotes _ _ _ |- _ =>
         edestruct D as (x' & D' & E); [reflexivity|eapply called_sub; [eassumption|intros ?; cbn; tauto]|exact H|] end.
  all: clear D.
  - eexists; split; [apply says_untake|finish_rest].
  - eexists; split; [apply says_remaining|finish_rest].
  - eexists; split; [apply says_bits_flag|finish_rest].
  - eexists; split; [apply says_skip|finish_rest].
  - eexists; split; [apply says_skip_encode|finish_rest].
  - eexists; split; [apply says_skip_decode|finish_rest].
  - eexists; split; [apply says_from_str|finish_rest].
  - eexists; split; [eapply says_big; eassumption|finish_rest].
  - eexists; split; [eapply says_little; eassumption|finish_rest].
  - eexists; split; [eapply says_order; eassumption|].
    intros B f f' AL. unfold alike_rest in *. destruct AL. constructor; cbn in *; auto.
    match goal with H : string_literal _ _ |- _ => destruct (B _ H) as (_ & _ & X) end. apply X; assumption.
  - eexists; split; [eapply says_length; eassumption|number_rest].
  - eexists; split; [eapply says_offset; eassumption|finish_rest].
  - eexists; split; [eapply says_count; eassumption|number_rest].
  - eexists; split; [eapply says_try_count; eassumption|number_rest].
  - eexists; split; [eapply says_branch; eassumption|number_rest].
  - eexists; split; [eapply says_bits; eassumption|number_rest].
  - eexists; split; [eapply says_bits_start; eassumption|number_rest].
  - eexists; split; [eapply says_byte_count; eassumption|number_rest].
  - eexists; split; [eapply says_outside; eassumption|number_rest].
  - eexists; split; [eapply says_full; eassumption|finish_rest].
  - eexists; split; [eapply says_key; eassumption|finish_rest].
  - eexists; split; [eapply says_split; eassumption|finish_rest].
  - eexists; split; [eapply says_linend; eassumption|finish_rest].
  - eexists; split; [eapply says_loop; eassumption|finish_rest].
  - eexists; split; [eapply says_if; eassumption|finish_rest].
  - eexists; split; [eapply says_value_decode; eassumption|finish_rest].
  - eexists; split; [eapply says_value_encode; eassumption|finish_rest].
  - eexists; split; [eapply says_check; eassumption|finish_rest].
  - eexists; split; [eapply says_variables; eassumption|finish_rest].
Qed.
Lemma says_offsets N O N' O' M' m en e g :
  let M := with_numbers N O m in let M'' := with_numbers N' O' m in
  says M e g ->
  exists g', says M'' e g' /\ (bound_ok M M' M'' en e -> forall f f', same_expr en (f_offset f) (f_offset f') ->
    same_expr en (f_offset (g f)) (f_offset (g' f'))).
Proof.
  cbv zeta. intros S.
  assert (D : forall k lit x, e = Property k lit -> denotes (with_numbers N O m) lit x ->
                exists x', denotes (with_numbers N' O' m) lit x' /\
                  (bound_ok (with_numbers N O m) M' (with_numbers N' O' m) en e -> called k ["offset"%string] -> x en = x' en)).
  { intros k lit x -> H. destruct H as [lit s n Q W L|lit s Q X]; eexists; split.
    - eapply denotes_number; eassumption.
    - reflexivity.
    - eapply denotes_expression; eassumption.
    - intros B K. destruct (B _ Q) as (_ & Y & _). apply Y; assumption. }
  destruct S.
  all: try match goal with H : denotes _ _ _ |- _ => edestruct D as (x' & D' & E); [reflexivity|exact H|] end.
  all: clear D.
  12:{ eexists; split; [eapply says_offset; eassumption|]. intros B f f' _. cbn [at_offset f_offset same_expr]. now apply E. }
  all: eexists; split; [econstructor; solve [eassumption|reflexivity]|intros _ f f' X; exact X].
Qed.
Lemma entries_bound N O N' N'' O' m en l gs :
  let M := with_numbers N O m in let M' := with_numbers N' O' m in let M'' := with_numbers N'' O' m in
  Forall2 (says M) l gs ->
  exists gs' gs'', Forall2 (says M') l gs' /\ Forall2 (says M'') l gs'' /\
    (Forall (bound_ok M M' M'' en) l -> forall f f' f'', alike_rest en f f' -> same_expr en (f_offset f) (f_offset f'') ->
       alike en (fold_left (fun f g => g f) gs f)
         (with_offset (f_offset (fold_left (fun f g => g f) gs'' f'')) (fold_left (fun f g => g f) gs' f'))).
Proof.
  cbv zeta. intros HS. induction HS as [|e g l gs S HS (gs' & gs'' & F' & F'' & HA)].
  - exists [], []. split; [constructor|]. split; [constructor|]. intros _ f f' f'' R E. cbn [fold_left].
    unfold alike_rest in R. destruct R. constructor; cbn in *; auto.
  - destruct (says_rest N O N' O' (with_numbers N'' O' m) m en e g S) as (g' & S' & G').
    destruct (says_offsets N O N'' O' (with_numbers N' O' m) m en e g S) as (g'' & S'' & G'').
    exists (g' :: gs'), (g'' :: gs''). split; [now constructor|]. split; [now constructor|].
    intros B f f' f'' R E. inversion B; subst. cbn [fold_left]. apply HA; auto.
Qed.
Lemma ordinary_says m e g f : says m e g -> ordinary_entry e ->
  f_from_str (g f) = f_from_str f /\ f_value_encode (g f) = f_value_encode f.
Proof.
  intros [] O; split; try reflexivity; cbn [ordinary_entry] in O.
  - elim O. now left.
  - elim O. assumption.
Qed.
Lemma ordinary_entries m l gs : Forall2 (says m) l gs -> Forall ordinary_entry l -> forall f,
  let f' := fold_left (fun f g => g f) gs f in f_from_str f' = f_from_str f /\ f_value_encode f' = f_value_encode f.
Proof.
  intros S. induction S as [|e g l gs S _ IH]; intros O f; [split; reflexivity|]. inversion O; subst. cbn [fold_left].
  destruct (IH ltac:(assumption) (g f)) as [-> ->]. now apply ordinary_says with (m := m) (e := e).
Qed.

(** ** Fields in the encoder of a variant *)
Definition bound_fields (A : arithmetic val) (others : bytes -> option val) (named : bool) (names : list bytes) (vs : list val) :=
  let number code := variant_number A others code names vs in
  read_bound (number (if named then star_code else var_code false)) (number (GenExpr.order_code false)) (number star_code).
Lemma fields_bound A others named names vs vars before fs l : field_says A others before fs l ->
  (forall f l, In f fs -> first_line ["jbytes"%string] (s_lines f) l -> Forall ordinary_entry l) ->
  exists out, bound_fields A others named names vs fs = Some out /\ map n_name out = map s_name fs /\
    Forall2 (fun f g => snd f = snd g) (nameless out) l /\
    (forall f, In f out -> f_from_str (n_spec f) = None /\ f_value_encode (n_spec f) = None) /\
    (NoDup names -> length vs = length names -> (forall x, In x names -> others x = None) -> names = before ++ map s_name fs ->
     (forall i f l, nth_error fs i = Some f -> first_line ["jbytes"%string] (s_lines f) l ->
        Forall (variant_writable A others named names (combine (firstn (length before + i) names) (firstn (length before + i) vs))) l) ->
     forall i f g, nth_error (nameless out) i = Some f -> nth_error l i = Some g ->
       alike (mkenv (firstn (length before + i) vs) vars) (fst f) (fst g)).
Proof.
  intros H. induction H as [before|before f r l gs more L D S V H IH]; intros HO.
  - exists []. split; [reflexivity|]. split; [reflexivity|]. split; [constructor|]. split; [easy|]. intros _ _ _ _ _ [|i]; discriminate.
  - destruct IH as (out & R & EN & ET & EF & EA); [intros f' l' Hf; apply HO; now right|].
    set (en := mkenv (firstn (length before) vs) vars).
    destruct (entries_bound (decoder_number A others var_code before) (decoder_number A others GenExpr.order_code before)
      (variant_number A others (if named then star_code else var_code false) names vs) (variant_number A others star_code names vs)
      (variant_number A others (GenExpr.order_code false) names vs) (s_meaning f) en l gs S) as (gs' & gs'' & S' & S'' & G).
    destruct (C50_all _ _ _ S') as (fa & P & Q). destruct (C50_all _ _ _ S'') as (fa' & P' & Q'). rewrite P in P'. injection P' as <-.
    unfold bound_fields in *. cbn [read_bound]. rewrite (first_line_parsed _ _ L D), P, R. eexists. split; [reflexivity|].
    unfold nameless in *. cbn [map n_name n_spec n_type]. rewrite EN. split; [reflexivity|]. split; [constructor; [reflexivity|exact ET]|]. rewrite Q, Q'. split.
    + intros f' [<-|Hf]; [|now apply EF]. cbn [n_spec with_offset f_from_str f_value_encode].
      destruct (ordinary_entries _ _ _ S' (HO f l (or_introl eq_refl) L) plain) as [-> ->]. split; reflexivity.
    + intros HD HL HX HN HW [|i] f' g' Hf Hg; cbn [nth_error] in Hf, Hg.
      * injection Hf as <-. injection Hg as <-. cbn [fst]. rewrite Nat.add_0_r. fold en. apply alike_sym, G; [|apply alike_refl|exact Logic.I].
        pose proof (HW 0%nat f l eq_refl L) as HW0. rewrite Nat.add_0_r in HW0.
        assert (EB : firstn (length before) names = before) by (rewrite HN; rewrite firstn_app, Nat.sub_diag, firstn_all; cbn; apply app_nil_r).
        eapply Forall_impl; [|exact HW0]. intros [i|k lit] W; [exact Logic.I|]. intros s Q0. destruct (W s Q0) as [W1 W2].
        cbn [m_number m_order with_numbers]. split; [|split].
        -- intros K NO X. destruct (W1 K X) as (t & v & z & T1 & T2 & T3 & T4 & T5 & T6).
           destruct (bound_number A others names vs HD HL HX s (length before) vars t v z T1 T2 T3 T4) as (E1 & E2 & E3).
           rewrite EB in E1. unfold en. rewrite E1. destruct named; symmetry; [apply E2; auto|apply E3; auto].
        -- intros K X. assert (K' : called k number_keys) by (eapply called_sub; [exact K|intros ?; cbn; tauto]).
           destruct (W1 K' X) as (t & v & z & T1 & T2 & T3 & T4 & T5 & T6).
           destruct (bound_number A others names vs HD HL HX s (length before) vars t v z T1 T2 T3 T4) as (E1 & E2 & _).
           rewrite EB in E1. unfold en. rewrite E1. symmetry. apply E2. auto.
        -- intros K X. destruct (W2 K X) as (t & v & z & T1 & T2 & T3 & T4 & T5).
           destruct (bound_order A others names vs HD HL HX s (length before) vars t v z T1 T2 T3 T4 T5) as (E1 & E2).
           rewrite EB in E1. unfold en. rewrite E1. symmetry. apply E2.
      * rewrite app_length in EA. cbn [length] in EA. replace (length before + Datatypes.S i)%nat with (length before + 1 + i)%nat by lia.
        apply EA; auto; [rewrite HN, <- app_assoc; reflexivity|].
        intros j f0 l0 Hj Hl. replace (length before + 1 + j)%nat with (length before + Datatypes.S j)%nat by lia. exact (HW (Datatypes.S j) f0 l0 Hj Hl).
Qed.

(** ** The arms of the encoder *)

(** [bf]: how the encoder reads the fields of a variant. *)
Definition fields_read_by (pm : patterns) (numbers : numbering_of) (bf : source_variant -> option (list field)) : Prop :=
  forall x v fs, variant_means pm numbers x v fs ->
    exists out, bf x = Some out /\ map n_name out = map s_name (x_fields x) /\ Forall2 (fun f g => snd f = snd g) (nameless out) fs /\
      (forall f, In f out -> f_from_str (n_spec f) = None /\ f_value_encode (n_spec f) = None).
Record encoder_arm (pm : patterns) (numbers : numbering_of) (bf : source_variant -> option (list field)) (a : code_arm)
                   (x : source_variant) (vf : vspec * list (fspec * ty)) : Prop := mkencoder_arm {
  ea_says : variant_means pm numbers x (fst vf) (snd vf);
  ea_arm : arm_for pm a x vf;
  ea_fields : bf x = Some (i_fields a);
  ea_compiles : forall vars e n, encode_arm_compiles vars e (arm_variant pm a) n (i_fields a) = true;
  ea_order : arm_in_order (i_fields a) }.
Lemma same_view (T : nat -> Prop) : (forall i, ~ T i) -> forall en en', differ_at T en en' -> en = en'.
Proof.
  intros HT [a x] [a' x'] (E1 & E2 & E3). cbn in *. subst x'. f_equal. clear E2.
  revert T HT a' E3. induction a as [|v a IH]; intros T HT [|v' a'] E3; [reflexivity|specialize (E3 O (HT O)); discriminate|specialize (E3 O (HT O)); discriminate|].
  f_equal; [specialize (E3 O (HT O)); now injection E3|]. apply (IH (fun i => T (Datatypes.S i))); [intros i; apply HT|]. intros i Hi. exact (E3 (Datatypes.S i) Hi).
Qed.
Lemma encoder_arms_read pm numbers bf xs vs : fields_read_by pm numbers bf -> Forall2 (fun x vf => variant_means pm numbers x (fst vf) (snd vf)) xs vs ->
  exists arms, read_arms bf xs = Some arms /\
    Forall2 (fun a vf => exists x, encoder_arm pm numbers bf a x vf) arms vs /\
    forall i x, nth_error xs i = Some x -> exists a vf, nth_error arms i = Some a /\ nth_error vs i = Some vf /\ encoder_arm pm numbers bf a x vf.
Proof.
  intros HB F. induction F as [|x [v fs] xs vs H F (arms & R & G & GI)]; [exists []; split; [reflexivity|split; [constructor|intros [|]; discriminate]]|].
  cbn [fst snd] in H. destruct (vs_entries _ _ _ _ _ H) as (l & gs & D & E & AT).
  destruct (own_read _ _ _ _ _ _ D E AT) as (fa & P & RV & S & L).
  destruct (HB _ _ _ H) as (out & RF & EN & ET & EF).
  destruct (variant_names _ _ _ _ _ H) as [ND OW].
  change (d_attrs (variant_of x)) with (x_lines x) in P.
  assert (W : forall f, In f out -> ~ In (n_name f) (encoder_names ++ tag_names) /\ n_name f <> list_byte_of_string "self" /\
     (exists c r, n_name f = c :: r /\ ~ (48 <= Byte.to_N c <= 57))).
  { intros f Hf. destruct (OW (n_name f)) as [[N1 N2] N3]; [rewrite <- EN; now apply in_map|]. split; [|split; [|exact N2]].
    - intros Hi. apply in_app_iff in Hi as [Hi|Hi]; [|now apply N3]. apply N1. revert Hi. apply incl_map. intros y. cbn. tauto.
    - intros Hi. apply N1. rewrite Hi. cbn. tauto. }
  set (a := mkarm fa (v_attr v) (x_name x) (x_named x) out).
  assert (EA : encoder_arm pm numbers bf a x (v, fs)).
  { constructor; cbn [i_attrs i_own i_name i_named i_fields fst snd a]; auto.
    - constructor; cbn [i_attrs i_own i_name i_named fst]; auto; [exact (dl_name _ _ _ _ D)|]. now rewrite (vs_named _ _ _ _ _ H).
    - intros vars e n. apply C69_arm_compiles; [now rewrite EN|]. intros f Hf. destruct (W f Hf) as (W1 & W2 & W3).
      split; [exact W1|]. split; [exact W2|]. split; [exact W3|]. left. now apply EF.
    - split; [now rewrite EN|]. split.
      + intros j f Hj en en' Hd. assert (X : en = en').
        { eapply same_view; [|exact Hd]. cbv beta. intros i (_ & h & Hh & (_ & _ & Hv & _)). apply Hv. apply nth_error_In in Hh. now apply EF. }
        rewrite X. repeat split; reflexivity.
      + intros f Hf _. destruct (W f Hf) as (W1 & _ & _). rewrite in_app_iff in W1. split; [tauto|].
        intros Hi. apply W1. right. rewrite Hi. cbn. tauto. }
  exists (a :: arms). split; [|split].
  - cbn [read_arms]. rewrite P, RF, R, L, S. reflexivity.
  - constructor; [now exists x|exact G].
  - intros [|i] x' Hx; cbn [nth_error] in *; [|now apply GI]. injection Hx as <-. exists a, (v, fs). auto.
Qed.
Lemma enc_arms_at e ca fa ys vs : forall i next b, enc_arms enc e ca fa ys vs i next b =
  match nth_error vs i, nth_error (numbering next (map fst vs)) i with
  | Some (v, fs), Some n =>
      match modifiers (v_attr v) (mkenv [] (k_vars ca)) with
      | None => Panic
      | Some prev =>
          plus (push_tag e v n ca fa)
               (_ <~ enc_offset (v_attr v) (mkenv [] (k_vars ca)) ;;
                enc_fields enc true (k_vars ca) (own_cattr (e_c e)) fs prev [] ys) b
      end
  | _, _ => ill_typed b
  end.
Proof.
  induction vs as [|[v fs] vs IH]; intros i next b; [destruct i; reflexivity|]. cbn [enc_arms map fst numbering].
  destruct i as [|i]; cbn [nth_error].
  - change (match v_disc v with Some n => n | None => match v_range v with Some (_, hi, _) => hi | None => match v_value v with Some n => n | None => next end end end) with (variant_index v next).
    destruct (modifiers (v_attr v) (mkenv [] (k_vars ca))); reflexivity.
  - fold (enc_arms enc e ca fa ys). rewrite IH. reflexivity.
Qed.
Lemma arm_bytes_written pm a x vf : arm_for pm a x vf -> v_value (fst vf) = None -> variant_bytes (arm_variant pm a) = variant_bytes (fst vf).
Proof.
  intros [R _ EN _] V. unfold variant_bytes, arm_variant. cbn [v_bytes v_name].
  destruct (rv_value _ _ _ _ R) as [(-> & _ & ->)|(s & -> & [(n & _ & _ & X & _)|(_ & _ & _ & ->)])]; cbn [option_map]; [exact EN|congruence|reflexivity].
Qed.
Lemma encoder_means own pm numbers bf (V : list (nat * N) -> Prop) s e vs i x ys : fields_read_by pm numbers bf -> enum_means own pm numbers s e vs ->
  nth_error (g_variants s) i = Some x -> length ys = length (x_fields x) ->
  (forall vars v fs out, V vars -> variant_means pm numbers x v fs -> bf x = Some out ->
     forall j f g, nth_error (nameless out) j = Some f -> nth_error fs j = Some g -> alike (mkenv (firstn j ys) vars) (fst f) (fst g)) ->
  exists w, enum_encoder_with bf s = Some w /\ (forall vars, enum_encoder_compiles pm w vars = true) /\
    forall ca fa b, V (k_vars ca) -> run_enum_encoder pm w ca fa i ys b = enc (TEnum e vs) ca fa (VVariant i ys) b.
Proof.
  intros HB [(l & C1 & C2 & C3 & C4 & C5 & C6 & C7 & C8) NE F B] HI HL HA.
  destruct (enum_container_parsed _ e l C1 C2 C4 C5 C6 C7 C8) as (ca & EC & EU & _ & ED).
  destruct (encoder_arms_read _ _ _ _ _ HB F) as (arms & RA & G & GI).
  pose proof (declarations _ _ _ _ F) as DS. pose proof (C64_numbers _ _ _ DS) as EN.
  exists (mkencoder e arms (numbering 0 (map fst vs))). split; [|split].
  - unfold enum_encoder_with. rewrite EC, RA, EN, ED. reflexivity.
  - intros vars. unfold enum_encoder_compiles. cbn [w_spec w_arms w_numbers]. rewrite andb_true_iff. split.
    + apply (forall_combine _ _ _ _ G). intros a vf n _ (x' & H). cbn [fst snd]. apply (ea_compiles _ _ _ _ _ _ H).
    + destruct (e_branching e) as [| | |n]; try reflexivity.
      * apply (forall_arms _ _ _ _ G). intros a vf Hi (x' & H). apply (prefix_read _ _ _ _ (ea_arm _ _ _ _ _ _ H)). apply B. exact Hi.
      * apply (forall_arms _ _ _ _ G). intros a vf Hi (x' & H). apply (prefix_read _ _ _ _ (ea_arm _ _ _ _ _ _ H)). apply (B vf Hi).
  - intros cattr fa b HV. cbn [enc]. rewrite enc_arms_at. unfold run_enum_encoder. cbn [w_arms w_spec w_numbers].
    destruct (GI i x HI) as (a & [v fs] & Ha & Hv & [SA AR EF K OR]). rewrite Ha, Hv. cbn [fst snd] in *.
    destruct (nth_error (numbering 0 (map fst vs)) i) as [n|]; [|reflexivity].
    destruct (HB _ _ _ SA) as (out & RF & EN' & ET & _). rewrite EF in RF. injection RF as <-.
    rewrite C69_arm; [|apply K|exact OR|].
    2:{ rewrite HL, <- (map_length s_name), <- EN', map_length. reflexivity. }
    change (v_attr (arm_variant pm a)) with (i_own a). rewrite (af_own _ _ _ _ AR). cbn [fst].
    destruct (modifiers (v_attr v) (mkenv [] (k_vars cattr))) as [prev|]; [|reflexivity].
    assert (PT : push_tag e (arm_variant pm a) n cattr fa = push_tag e v n cattr fa).
    { unfold push_tag. destruct (e_branching e) eqn:EB; try reflexivity.
      - rewrite (arm_bytes_written _ _ _ _ AR); [reflexivity|]. apply (proj1 B (v, fs)). eapply nth_error_In; eassumption.
      - rewrite (arm_bytes_written _ _ _ _ AR); [reflexivity|]. apply (B (v, fs)). eapply nth_error_In; eassumption. }
    rewrite PT. unfold plus, wbind. destruct (push_tag e v n cattr fa b) as [u b'|k b'| |]; try reflexivity.
    destruct (enc_offset (v_attr v) _ b') as [u' b''|k b''| |]; try reflexivity.
    rewrite (alike_fields enc true (k_vars cattr) (own_cattr (e_c e)) (nameless (i_fields a)) fs prev [] ys ET); [reflexivity|].
    intros j f g Hf Hg. cbn [app]. exact (HA _ _ _ _ HV SA EF j f g Hf Hg).
Qed.
Lemma encoder_same pm A others s e vs i x ys : enum_says pm A others s e vs ->
  nth_error (g_variants s) i = Some x -> length ys = length (x_fields x) ->
  (forall y, In y (map s_name (x_fields x)) -> others y = None) -> fields_writable A others x ys ->
  exists w, derived_enum_encoder A others s ys = Some w /\ (forall vars, enum_encoder_compiles pm w vars = true) /\
    forall ca fa b, run_enum_encoder pm w ca fa i ys b = enc (TEnum e vs) ca fa (VVariant i ys) b.
Proof.
  intros S HI HL HX HW. set (bf := fun x => bound_fields A others (x_named x) (map s_name (x_fields x)) ys (x_fields x)).
  destruct (encoder_means own_codec pm (decoder_number A others) bf (fun _ => True) s e vs i x ys) as (w & W1 & W2 & W3); auto.
  - intros x' v fs H. destruct (fields_bound A others (x_named x') (map s_name (x_fields x')) ys [] [] (x_fields x') fs (vs_fields _ _ _ _ _ H) (vs_ordinary _ _ _ _ _ H))
      as (out & X). exists out. unfold bf. tauto.
  - intros vars v fs out _ H RF j f g Hf Hg.
    destruct (fields_bound A others (x_named x) (map s_name (x_fields x)) ys vars [] (x_fields x) fs (vs_fields _ _ _ _ _ H) (vs_ordinary _ _ _ _ _ H))
      as (out' & RF' & EN & ET & _ & EA). unfold bf in RF. rewrite RF in RF'. injection RF' as <-.
    destruct (variant_names _ _ _ _ _ H) as [ND _]. apply (EA ND); auto. now rewrite map_length.
  - exists w. split; [|split; [exact W2|intros; now apply W3]].
    destruct (es_container _ _ _ _ _ _ S) as (l & C1 & C2 & C3 & C4 & C5 & C6 & C7 & C8).
    destruct (enum_container_read _ e l C1 C2 C3 C4 C5 C6 C7 C8) as (_ & _ & EO & _). unfold derived_enum_encoder. rewrite EO. exact W1.
Qed.

(** C92: structs whose attributes calculate round trip, whatever the calculation does. *)
From Coq Require Import Ascii String.
From Verif Require Import Base BaseLemmas Ints SpecOps Reader Writer Sugar TextSpec Text AttrParse AttrSpec AttrLemmas EnumTextSpec GenExpr GenExprSpec
  GenExprLemmas PropsExpr PropsAttr GenDecode GenEncode GenSpec PropsGen PropsGenEncode Source SourceSpec SourceLemmas PropsSource
  Decode Encode Spec Collections Containers NetLemmas PropsContainers WireSpec Examples FieldSpec PropsEnumSource
  MachineExpr MachineSpec PropsMachine MachineEncode MachineEncodeSpec Schema.
Close Scope string_scope.

(** ** Names *)
Lemma eqb_dec x y : bytes_eqb x y = if list_eq_dec Byte.byte_eq_dec x y then true else false.
Proof.
  destruct (list_eq_dec _ x y) as [-> |N]; [apply bytes_eqb_refl|]. destruct (bytes_eqb x y) eqn:E; [|reflexivity].
  apply bytes_eqb_eq in E. contradiction.
Qed.
Lemma type_found s f : NoDup (map s_name (s_fields s)) -> In f (s_fields s) -> types_of s (s_name f) = Some (s_type f).
Proof.
  intros D I. unfold types_of. revert D I. generalize (s_fields s). intros fs. induction fs as [|g r IH]; [easy|]. cbn [map find].
  intros D [-> |I]; [now rewrite bytes_eqb_refl|]. apply NoDup_cons_iff in D as [N D].
  destruct (bytes_eqb (s_name f) (s_name g)) eqn:E; [|now apply IH]. apply bytes_eqb_eq in E. elim N. rewrite <- E. now apply in_map.
Qed.
Lemma no_dup_filter {A B} (g : A -> B) p l : NoDup (map g l) -> NoDup (map g (filter p l)).
Proof.
  induction l as [|a l IH]; [auto|]. cbn [map filter]. intros D. apply NoDup_cons_iff in D as [N D].
  destruct (p a); [|auto]. cbn [map]. apply NoDup_cons; [|auto]. intros I. apply N. apply in_map_iff in I as (b & <- & I).
  apply filter_In in I as [I _]. now apply in_map.
Qed.
Definition fitting (s : source) (vs : list val) : Prop := Forall2 (fun f v => holds (s_type f) v) (s_fields s) vs.
Lemma members_names s vs : NoDup (map s_name (s_fields s)) -> fitting s vs ->
  map fst (members (types_of s) (map s_name (s_fields s)) vs) = calculable_fields s.
Proof.
  intros D F. unfold calculable_fields, members, fitting in *.
  assert (T : forall f, In f (s_fields s) -> types_of s (s_name f) = Some (s_type f)) by (intros f; now apply type_found).
  clear D. revert T. induction F as [|f v fs vs H F IH]; intros T; [reflexivity|]. cbn [map combine flat_map filter]. rewrite map_app, IH by (intros g I; apply T; now right).
  cbn [fst snd]. rewrite (T f (or_introl eq_refl)). unfold holds in H. unfold calculable. destruct (s_type f); try (destruct v; reflexivity).
  - destruct H as (z & -> & _). reflexivity.
  - destruct H as (b & ->). reflexivity.
Qed.
Lemma members_split types names vs i : members types names vs = members types (firstn i names) (firstn i vs) ++ members types (skipn i names) (skipn i vs).
Proof. unfold members. rewrite (combine_split i names vs). apply flat_map_app. Qed.

(** ** The fields before a field *)
Lemma find_pairs x fs (vs : list val) : find (fun xv => bytes_eqb x (fst xv)) (combine (map s_name fs) vs) =
  option_map (fun fv => (s_name (fst fv), snd fv)) (find (fun fv => if list_eq_dec Byte.byte_eq_dec x (s_name (fst fv)) then true else false) (combine fs vs)).
Proof.
  revert vs. induction fs as [|f r IH]; intros [|v vs]; try reflexivity. cbn [map combine find fst snd]. rewrite eqb_dec.
  destruct (list_eq_dec _ x (s_name f)); [reflexivity|apply IH].
Qed.
Lemma scope_variables s fs vs x w : NoDup (map s_name (s_fields s)) -> incl fs (s_fields s) ->
  at_machine (integer_of fs vs) x = Some w -> variables (types_of s) (map s_name fs) vs x = Some w.
Proof.
  intros D I. unfold at_machine, integer_of, variables. rewrite find_pairs.
  match goal with |- context [find ?f (combine fs vs)] => destruct (find f (combine fs vs)) as [[f0 v]|] eqn:E end; [|discriminate].
  cbn [option_map fst snd]. apply find_some in E as [J E]. cbn [fst] in E. destruct (list_eq_dec _ x (s_name f0)) as [-> |]; [|discriminate].
  apply in_combine_l in J. rewrite (type_found s f0 D (I _ J)). destruct v; try discriminate. destruct (s_type f0); try discriminate. auto.
Qed.
Lemma variables_members types names vs x w : NoDup names -> variables types names vs x = Some w -> In (x, w) (members types names vs).
Proof.
  intros _. unfold variables, members. destruct (find _ (combine names vs)) as [[y v]|] eqn:E; [|discriminate].
  apply find_some in E as [J E]. cbn [fst] in E. apply bytes_eqb_eq in E. subst y. intros H. apply in_flat_map. exists (x, v). split; [exact J|]. cbn [fst snd].
  destruct v; try discriminate; destruct (types x) as [[]|]; try discriminate; injection H as <-; now left.
Qed.
Lemma scope_is_typed fs vs : Forall2 (fun f v => holds (s_type f) v) fs vs -> scope_typed (integer_type_of fs) (integer_of fs vs).
Proof.
  intros F. split.
  - intros x. unfold integer_type_of, integer_of. induction F as [|f v fs vs H F IH]; [reflexivity|]. cbn [combine find fst].
    destruct (list_eq_dec _ x (s_name f)); [|exact IH]. unfold holds in H. destruct (s_type f); try (now destruct v).
    destruct H as (z & -> & _). reflexivity.
  - intros x t z. unfold integer_of. induction F as [|f v fs vs H F IH]; [discriminate|]. cbn [combine find fst].
    destruct (list_eq_dec _ x (s_name f)); [|exact IH]. unfold holds in H. destruct v; try discriminate. destruct (s_type f); try discriminate.
    intros [= <- <-]. destruct H as (z' & [= <-] & R). exact R.
Qed.

(** ** Numbers *)
Lemma no_dup_front {A} (l r : list A) : NoDup (l ++ r) -> NoDup l.
Proof. induction l as [|a l IH]; [constructor|]. cbn. intros D. apply NoDup_cons_iff in D as [N D]. constructor; [|auto]. intros I. apply N, in_app_iff. now left. Qed.
Lemma forall2_firstn {A B} (P : A -> B -> Prop) i l r : Forall2 P l r -> Forall2 P (firstn i l) (firstn i r).
Proof. intros H. revert i. induction H; intros [|i]; cbn; constructor; auto. Qed.
Lemma apart_members s vs : NoDup (map s_name (s_fields s)) -> fitting s vs -> ~ In (txt "self") (map s_name (s_fields s)) ->
  apart (members (types_of s) (map s_name (s_fields s)) vs) (fun _ => None).
Proof.
  intros D F N. split; [reflexivity|]. split; [|reflexivity]. rewrite (members_names s vs D F). intros I. apply N. unfold calculable_fields in I.
  apply in_map_iff in I as (f & E & I). apply filter_In in I as [I _]. change (list_byte_of_string "self") with (txt "self") in E. rewrite <- E. now apply in_map.
Qed.
Section Numbers.
Context (s : source) (vs : list val).
Let names := map s_name (s_fields s).
Context (D : NoDup names) (F : fitting s vs) (N : ~ In (txt "self") names).
Lemma calculation_value level i text : calculation level s vs i text ->
  exists e t z, reads_as level text e /\ eval (machine_arithmetic false) (variables (types_of s) (firstn i names) (firstn i vs)) e = Some (Whole t z).
Proof.
  intros (_ & e & t & R & T & H). exists e, t.
  pose proof (scope_is_typed _ _ (forall2_firstn _ i _ _ F)) as ST.
  assert (V : exists z, eval (machine_arithmetic false) (at_machine (integer_of (firstn i (s_fields s)) (firstn i vs))) e = Some (Whole t z)).
  { destruct H as [H|(z & H)].
    - destruct (C90_unchecked _ _ e t ST T) as (v & E & [(z & -> & _)|[_ H']]); [now exists z|contradiction].
    - exists z. exact (proj1 (C90_exact _ e t z (proj2 ST) H false)). }
  destruct V as (z & V). exists z. split; [exact R|]. refine (eval_more _ _ _ _ _ _ V). intros x w Hx. unfold names. rewrite firstn_map.
  apply scope_variables; [exact D| |exact Hx]. intros f I. rewrite <- (firstn_skipn i (s_fields s)). apply in_app_iff. now left.
Qed.
(** Both sides compute the same, provided [code] puts the text somewhere. *)
Lemma codes_agree (code : bool -> bytes -> bytes) i text t z :
  (forall before after v, NoDup (map fst (before ++ after)) -> apart (before ++ after) (fun _ => None) -> one_field_first (map fst (before ++ after)) text ->
     code_value (machine_arithmetic false) (decoder_scope before (fun _ => None)) (code false text) = Some v ->
     code_value (machine_arithmetic false) (encoder_scope (Members (before ++ after)) (fun _ => None)) (code true text) = Some v) ->
  one_field_first (calculable_fields s) text ->
  code_value (machine_arithmetic false) (decoder_scope (members (types_of s) (firstn i names) (firstn i vs)) (fun _ => None)) (code false text) = Some (Whole t z) ->
  forall en, machine_encoder_number (types_of s) code names vs text en = z.
Proof.
  intros H O E en. unfold machine_encoder_number. rewrite (members_split _ names vs i).
  rewrite (H _ _ (Whole t z)); [reflexivity|..|exact E]; rewrite <- members_split; try (unfold names; rewrite (members_names s vs D F)).
  - unfold calculable_fields. now apply no_dup_filter.
  - now apply apart_members.
  - exact O.
Qed.
Lemma members_scope i x w : variables (types_of s) (firstn i names) (firstn i vs) x = Some w ->
  decoder_scope (members (types_of s) (firstn i names) (firstn i vs)) (fun _ => None) x = Some w.
Proof.
  intros H. apply variables_members in H; [|rewrite <- (firstn_skipn i names) in D; now apply no_dup_front in D].
  unfold decoder_scope. rewrite (find_in _ x w); [reflexivity| |exact H].
  assert (X : NoDup (map fst (members (types_of s) names vs))) by (unfold names; rewrite (members_names s vs D F); now apply no_dup_filter).
  rewrite (members_split _ names vs i), map_app in X. now apply no_dup_front in X.
Qed.
Lemma machine_numbers_agree i text vars en : calculation Disjunction s vs i text ->
  machine_number (types_of s) var_code (firstn i names) text (mkenv (firstn i vs) vars) = machine_encoder_number (types_of s) var_code names vs text en.
Proof.
  intros C. destruct (calculation_value _ _ _ C) as (e & t & z & R & E). set (w := cast Usize z).
  assert (X : forall sc, eval (machine_arithmetic false) sc e = Some (Whole t z) -> code_value (machine_arithmetic false) sc (var_code false text) = Some (Whole Usize w)).
  { intros sc H. rewrite (C66_text _ _ _ _ _ (var_reads _ _ R)). cbn [eval a_cast machine_arithmetic]. rewrite H. reflexivity. }
  transitivity w.
  - unfold machine_number. cbn [ev_fields]. now rewrite (X _ E).
  - symmetry. apply (codes_agree var_code i text Usize w); [|exact (proj1 C)|].
    + intros before after v ND AP O H. now apply C90_encoder.
    + apply X. refine (eval_more _ _ _ _ _ _ E). apply members_scope.
Qed.
Lemma machine_orders_agree i text vars en : calculation Cast s vs i text ->
  machine_number (types_of s) GenExpr.order_code (firstn i names) text (mkenv (firstn i vs) vars) = machine_encoder_number (types_of s) GenExpr.order_code names vs text en.
Proof.
  intros C. destruct (calculation_value _ _ _ C) as (e & t & z & R & E). set (w := cast Isize z).
  assert (X : forall sc, eval (machine_arithmetic false) sc e = Some (Whole t z) -> code_value (machine_arithmetic false) sc (GenExpr.order_code false text) = Some (Whole Isize w)).
  { intros sc H. assert (Y : reads_as Disjunction (GenExpr.order_code false text) (ECast e (txt "isize"))).
    { apply (whole Cast). unfold GenExpr.order_code. change (txt " as isize") with (list_byte_of_string " as " ++ txt "isize"). cbn [app].
      apply ra_cast; [exact R|]. split; [|discriminate]. split; [left; vm_compute; split; discriminate|].
      repeat (apply Forall_cons; [left; left; vm_compute; split; discriminate|]). apply Forall_nil. }
    rewrite (C66_text _ _ _ _ _ Y). cbn [eval a_cast machine_arithmetic]. rewrite H. reflexivity. }
  transitivity w.
  - unfold machine_number. cbn [ev_fields]. now rewrite (X _ E).
  - symmetry. apply (codes_agree GenExpr.order_code i text Isize w); [|exact (proj1 C)|].
    + intros before after v ND AP O H.
      assert (S : struct_value (machine_arithmetic false) (before ++ after) (Members (before ++ after))).
      { constructor; [exact ND| | |reflexivity]; cbn [a_get machine_arithmetic machine_get].
        - intros x u Hi. now rewrite (find_in _ x u ND Hi).
        - intros x Hx. now rewrite (find_not _ x Hx). }
      destruct (C66_byteorder machine (machine_arithmetic false) before after _ (fun _ => None) text v S AP H) as [[_ Z]|[Z _]]; [exact Z|contradiction].
    + apply X. refine (eval_more _ _ _ _ _ _ E). apply members_scope.
Qed.
End Numbers.

(** ** Structs *)
Lemma machine_written s vs vars : let names := map s_name (s_fields s) in NoDup names -> fitting s vs -> ~ In (txt "self") names ->
  forall before fs l, fields_mean (machine_number (types_of s)) before fs l -> names = before ++ map s_name fs ->
  (forall i f l, nth_error fs i = Some f -> first_line ["jbytes"%string] (s_lines f) l -> Forall (calculates s vs (length before + i)) l) ->
  exists out, read_fields (fun code _ => machine_encoder_number (types_of s) code names vs) before fs = Some out /\
    map n_name out = map s_name fs /\ Forall2 (fun f g => snd f = snd g) (nameless out) l /\
    (forall i f g, nth_error (nameless out) i = Some f -> nth_error l i = Some g ->
       alike (mkenv (firstn (length before + i) vs) vars) (fst f) (fst g)).
Proof.
  intros names HD HF HS before fs l H. induction H as [before|before f r l gs more L D S V H IH]; intros HN HW.
  - exists []. split; [reflexivity|]. split; [reflexivity|]. split; [apply Forall2_nil|]. intros [|i]; discriminate.
  - destruct IH as (out & R & EN & ET & EA).
    { rewrite HN, <- app_assoc. reflexivity. }
    { intros i f' l' Hi Hl. rewrite app_length. cbn [length]. replace (length before + 1 + i)%nat with (length before + Datatypes.S i)%nat by lia. exact (HW (Datatypes.S i) f' l' Hi Hl). }
    pose proof (HW 0%nat f l eq_refl L) as HW0. rewrite Nat.add_0_r in HW0.
    assert (EB : firstn (length before) names = before) by (rewrite HN; rewrite firstn_app, Nat.sub_diag, firstn_all; cbn; apply app_nil_r).
    set (E := machine_encoder_number (types_of s)) in *.
    destruct (entries_alike (machine_number (types_of s) var_code before) (machine_number (types_of s) GenExpr.order_code before)
                (E var_code names vs) (E GenExpr.order_code names vs) (s_meaning f)
                (mkenv (firstn (length before) vs) vars) l gs) as (gs' & S' & G).
    { eapply Forall_impl; [|exact HW0]. intros [i|k lit] W; [exact Logic.I|]. intros x Q. destruct (W x Q) as [W1 W2]. cbn [m_number m_order with_numbers]. split.
      - intros K X. pose proof (machine_numbers_agree s vs HD HF HS (length before) x vars (mkenv (firstn (length before) vs) vars) (W1 K X)) as Z. fold names in Z. rewrite EB in Z. exact Z.
      - intros K X. pose proof (machine_orders_agree s vs HD HF HS (length before) x vars (mkenv (firstn (length before) vs) vars) (W2 K X)) as Z. fold names in Z. rewrite EB in Z. exact Z. }
    { exact S. }
    destruct (C50_all _ _ _ S') as (fa & P & Q). cbn [read_fields]. rewrite (first_line_parsed _ _ L D), P, R, Q.
    eexists. split; [reflexivity|]. unfold nameless in *. cbn [map n_spec n_type n_name]. rewrite EN. split; [reflexivity|]. split; [constructor; [reflexivity|exact ET]|].
    intros [|i] f' g' Hf Hg; cbn [nth_error] in Hf, Hg.
      * injection Hf as <-. injection Hg as <-. cbn [fst]. rewrite Nat.add_0_r. apply alike_sym, G, alike_refl.
      * rewrite app_length in EA. cbn [length] in EA. replace (length before + Datatypes.S i)%nat with (length before + 1 + i)%nat by lia. now apply EA.
Qed.
(** The derived encoder writes what the text says with the numbers the machine computes, and
    the derived decoder reads it back. *)
Theorem C92_round_trip : forall s c l vs w rest,
  let t := TStruct true c l in let names := map s_name (s_fields s) in
  (exists es, first_line ["jbytes"; "repr"]%string (s_container s) es /\ Forall container_entry es /\ Forall own_codec es /\
     decided about_order es (c_order c) /\ decided about_width es (c_byte_count c)) ->
  fields_mean (machine_number (types_of s)) [] (s_fields s) l -> NoDup names -> (forall x, In x names -> own_name x) ->
  Forall2 (fun f v => holds (s_type f) v) (s_fields s) vs -> all_calculate s vs ->
  well_formed t -> wire t no_cattr no_fattr (VList vs) = Some w -> fits t no_cattr no_fattr (VList vs) rest = true ->
  allocatable (w ++ rest) ->
  exists d e, machine_decoder s = Some d /\ machine_encoder s vs = Some e /\
    struct_compiles d [] = true /\ encoder_compiles e [] = true /\
    (exists n pos, run_encoder enc e no_cattr no_fattr vs buf_new = Ok n (mkbuf w pos)) /\
    run_struct dec d no_cattr (w ++ rest) 0 = Ok (VList vs) (size w).
Proof.
  intros s c l vs w rest t names HC HF HD HO HV HW WF WI FI AL.
  assert (HL : length vs = length names) by (unfold names; rewrite map_length; clear - HV; induction HV; cbn; lia).
  destruct (container_read _ _ HC) as (ca & EC & EO & ECC).
  destruct (fields_read (machine_number (types_of s)) [] (s_fields s) l HF) as (fs & ER & ET & EN & EV).
  destruct (machine_written s vs [] HD HV) with (before := @nil bytes) (fs := s_fields s) (l := l) as (gs & ER' & EN' & ET' & EA).
  { intros I. apply HO in I as [I _]. apply I. cbn. tauto. }
  { exact HF. } { reflexivity. } { intros i f l' Hi Hl. exact (HW i f l' Hi Hl). }
  cbn [length Nat.add] in EA.
  set (o := if container_used (s_container s) then Some (container_spec ca) else None) in *.
  exists (mkdecl true o (Some fs)), (mkdecl true o (Some gs)).
  assert (R : forall x, In x names -> ~ In x reserved).
  { intros x Hx Hr. apply (proj1 (HO x Hx)). revert Hr. apply incl_map. intros y. cbn. tauto. }
  assert (NF : forall f, In f fs -> In (n_name f) names) by (intros f Hf; unfold names; rewrite <- EN; now apply in_map).
  assert (NG : forall f, In f gs -> In (n_name f) names) by (intros f Hf; unfold names; rewrite <- EN'; now apply in_map).
  destruct (C65_compiles (mkdecl true o (Some fs)) fs [] eq_refl) as [KD P].
  { rewrite EN. exact HD. } { intros f Hf. apply R, NF, Hf. } { intros _. exact EV. } { now left. }
  assert (KE : forall hs, (forall f, In f hs -> In (n_name f) names) -> encoder_compiles (mkdecl true o (Some hs)) [] = true).
  { intros hs Hh. apply (C69_compiles (mkdecl true o (Some hs)) hs [] eq_refl). intros f Hf _. destruct (HO _ (Hh f Hf)) as [N F].
    split; [|split; [|exact F]].
    - intros Hr. apply N. revert Hr. apply incl_map. intros y. cbn. tauto.
    - intros E. apply N. rewrite E. cbn. tauto. }
  assert (LF : length vs = length fs) by (rewrite HL; unfold names; rewrite <- EN; apply map_length).
  assert (LG : length vs = length gs) by (rewrite HL; unfold names; rewrite <- EN'; apply map_length).
  assert (T : TStruct (d_named (mkdecl true o (Some fs))) (GenDecode.container_of (mkdecl true o (Some fs))) (nameless fs) = t).
  { unfold t. cbn [d_named]. rewrite ET. unfold GenDecode.container_of. cbn [d_container]. now rewrite ECC. }
  destruct (C69_round_trip (mkdecl true o (Some fs)) fs vs w rest eq_refl (KE fs NF) KD P LF) as [(n & pos & E) D];
    try (rewrite T; assumption); [exact AL|].
  split; [unfold machine_decoder, derived; now rewrite EC, ER, EO|].
  split; [unfold machine_encoder, derived; now rewrite EC, ER', EO|].
  split; [exact KD|]. split; [exact (KE gs NG)|]. split; [|exact D]. exists n, pos. rewrite <- E.
  rewrite (C69_struct (mkdecl true o (Some fs)) fs no_cattr no_fattr vs _ eq_refl (KE fs NF) LF).
  rewrite (C69_struct (mkdecl true o (Some gs)) gs no_cattr no_fattr vs _ eq_refl (KE gs NG) LG). cbn [d_named].
  unfold GenDecode.container_of. cbn [d_container]. cbn [enc]. rewrite ET. apply alike_fields; [exact ET'|exact EA].
Qed.

(** ** A text as long as a number less a constant *)
Lemma lex_less k n : decimal_text k n -> lex [] (txt "len - " ++ k) = Some [TName (txt "len"); TOp Minus; TNum n].
Proof.
  intros D. pose proof (lex_number k n D) as L. destruct k as [|d k]; [destruct D as (_ & _ & H); now elim H|].
  assert (E : lex [] (txt "len - " ++ d :: k) = match lex [] (d :: k) with Some ts => Some (TName (txt "len") :: TOp Minus :: ts) | None => None end).
  { remember (lex [] (d :: k)) as X eqn:EX. cbn [txt list_byte_of_string app]. 
    transitivity (flush (txt "len") (then_tokens [] (then_tokens [TOp Minus] (then_tokens [] X)))); [|destruct X; reflexivity].
    subst X. reflexivity. }
  rewrite E, L. reflexivity.
Qed.
Lemma text_calculates t k n m vs : decimal_text k n -> in_range t (Z.of_N n) -> all_calculate (text_less t k m) vs.
Proof.
  intros D R i f l Hi Hl.
  destruct i as [|[|i]]; [..|destruct i; discriminate].
  - injection Hi as <-. cbn [s_lines] in Hl. destruct Hl as [(a & b & c & E & _)|(-> & _)]; [|constructor]. destruct a; discriminate E.
  - injection Hi as <-. cbn [s_lines] in Hl. assert (EL : l = [Property (txt "length") (quoted (txt "len - " ++ k))]).
    { destruct Hl as [(pre & a & post & E & _ & <- & _)|(_ & N)].
      - destruct pre as [|? []]; [injection E as <- _; reflexivity|discriminate|discriminate].
      - exfalso. apply (N _ (or_introl eq_refl)). left. reflexivity. }
    rewrite EL. constructor; [|constructor]. intros x Q. split; [|intros C; vm_compute in C; intuition discriminate]. intros _ _.
    assert (X : x = txt "len - " ++ k). { rewrite <- (read_string _ _ Q). apply read_string. now apply (less_literal k n). }
    subst x. split.
    + exists (txt "len"), [TOp Minus; TNum n]. split; [now apply lex_less|]. split; [left; reflexivity|]. intros y H. vm_compute in H. contradiction.
    + exists (EOp Minus (EName (txt "len")) (ENum n)), t. split; [now apply less_reads|]. split.
      * apply ht_op; [cbn; tauto|intros [(z & H) _]; discriminate|cbn; intuition discriminate|apply ft_type; now constructor|now constructor].
      * left. cbn. intuition discriminate.
Qed.
Lemma text_less_wire : forall m t k n len body rest, signed t = false -> (imod t <= 2 ^ 64)%Z -> decimal_text k n ->
  in_range t len -> in_range t (Z.of_N n) -> wraps_to t (len - Z.of_N n) (Z.of_N (size body)) ->
  let w := digits Be (N.to_nat (width_bytes t)) (Z.to_N len) ++ body in
  wire (TStruct true no_cspec (text_less_fields t k m)) no_cattr no_fattr (VList [VInt len; VBytes body]) = Some w /\
  fits (TStruct true no_cspec (text_less_fields t k m)) no_cattr no_fattr (VList [VInt len; VBytes body]) rest = true /\
  well_formed (TStruct true no_cspec (text_less_fields t k m)).
Proof.
  intros m t k n len body rest S B D RL RN SB w. pose proof (wraps_cast _ _ _ SB) as CA.
  set (N := machine_number (types_of (text_less t k m)) var_code [txt "len"] (txt "len - " ++ k)).
  assert (SU : (0 <= Z.of_N (size body) < 2 ^ 64)%Z).
  { destruct SB as [[_ H] _]. unfold imax in H. rewrite S in H. lia. }
  assert (CU : cast Usize (Z.of_N (size body)) = Z.of_N (size body)).
  { apply wraps_cast. split; [|exists 0%Z; lia]. unfold in_range. change (imin Usize) with 0%Z. change (imax Usize) with (2 ^ 64 - 1)%Z. lia. }
  assert (EN : forall vars, N (mkenv [VInt len] vars) = Z.of_N (size body)).
  { intros vars. unfold N, machine_number. cbn [ev_fields]. rewrite (C66_text _ _ _ _ _ (var_reads _ _ (less_reads k n D))).
    cbn [eval a_op a_cast a_num machine_arithmetic]. change (variables _ [txt "len"] [VInt len] (txt "len")) with (Some (Whole t len)).
    cbn [machine_op shifts divides andb]. apply in_rangeb_iff in RN. rewrite RN. cbn [andb negb calculate]. unfold fitted, machine_cast.
    change (integer_type (txt "usize")) with (Some Usize).
    destruct (in_rangeb t (len - Z.of_N n)) eqn:E; cbn iota beta; [|now rewrite CA].
    apply in_rangeb_iff in E. rewrite <- (wraps_cast t (len - Z.of_N n) (len - Z.of_N n)), CA; [exact CU|]. split; [exact E|exists 0%Z; lia]. }
  assert (WI : wire (TStruct true no_cspec (text_less_fields t k m)) no_cattr no_fattr (VList [VInt len; VBytes body]) = Some w).
  { unfold text_less_fields. fold N. cbn -[digits wire_int N app].
    unfold wire_int. assert (VB : value_inb t len = true). { now apply BitsLemmas.value_inb_range. }
    rewrite VB. cbn -[digits N app]. rewrite !app_nil_r. cbn [app].
    assert (U : unsigned t len = Z.to_N len). { unfold unsigned. f_equal. apply Z.mod_small. clear -RL S. unfold in_range, imin, imax, imod in RL. rewrite S in RL. destruct t; try discriminate S; cbv [isize_of] in RL; cbv [width_bytes]; lia. }
    now rewrite U. }
  assert (FI : fits (TStruct true no_cspec (text_less_fields t k m)) no_cattr no_fattr (VList [VInt len; VBytes body]) rest = true).
  { unfold text_less_fields. fold N. cbn -[digits wire_int N app N.eqb].
    cbn [app]. rewrite EN, Z.eqb_refl, bytes_eqb_refl. unfold as_usize, raw_of_int. change (imod Usize) with (2 ^ 64)%Z. rewrite Z.mod_small by lia. rewrite N2Z.id, N.eqb_refl. reflexivity. }
  assert (WF : well_formed (TStruct true no_cspec (text_less_fields t k m))).
  { unfold text_less_fields. well. }
  auto.
Qed.
(** Whatever [len] is: the text is as long as the difference comes out. *)
Theorem C92_text : forall m t k n len body rest, signed t = false -> (imod t <= 2 ^ 64)%Z -> decimal_text k n ->
  in_range t len -> in_range t (Z.of_N n) -> wraps_to t (len - Z.of_N n) (Z.of_N (size body)) ->
  let w := digits Be (N.to_nat (width_bytes t)) (Z.to_N len) ++ body in allocatable (w ++ rest) ->
  exists d e, machine_decoder (text_less t k m) = Some d /\ machine_encoder (text_less t k m) [VInt len; VBytes body] = Some e /\
    struct_compiles d [] = true /\ encoder_compiles e [] = true /\
    (exists n pos, run_encoder enc e no_cattr no_fattr [VInt len; VBytes body] buf_new = Ok n (mkbuf w pos)) /\
    run_struct dec d no_cattr (w ++ rest) 0 = Ok (VList [VInt len; VBytes body]) (size w).
Proof.
  intros m t k n len body rest S B D RL RN SB w AL. destruct (text_less_wire m t k n len body rest S B D RL RN SB) as (WI & FI & WF).
  refine (C92_round_trip (text_less t k m) no_cspec (text_less_fields t k m) [VInt len; VBytes body] w rest _ _ _ _ _ _ WF WI FI AL).
  - exists []. split; [right; easy|]. repeat split; try (constructor; fail); apply undecided; easy.
  - now apply (text_less_means t k n m).
  - cbn. repeat constructor; cbn; intuition discriminate.
  - intros x [<-|[<-|[]]]; (split; [cbn; intuition discriminate|]).
    + exists "l"%byte, (txt "en"). split; [reflexivity|]. change (Byte.to_N "l") with 108%N. lia.
    + exists "b"%byte, (txt "ody"). split; [reflexivity|]. change (Byte.to_N "b") with 98%N. lia.
  - constructor; [exists len; now split|]. constructor; [exact Logic.I|constructor].
  - now apply (text_calculates t k n).
Qed.
(** [len] 9 goes with a text of 5 bytes; [len] 2 with one of 254 bytes, where the
    subtraction wraps; either is written and read back. *)
Example C92_text_case m : forall len body rest, In (len, size body) [(9%Z, 5); (2%Z, 254)] -> size rest < 1000 ->
  exists d e, machine_decoder (text_less U8 (txt "4") m) = Some d /\ machine_encoder (text_less U8 (txt "4") m) [VInt len; VBytes body] = Some e /\
    (exists n pos, run_encoder enc e no_cattr no_fattr [VInt len; VBytes body] buf_new = Ok n (mkbuf (digits Be 1 (Z.to_N len) ++ body) pos)) /\
    run_struct dec d no_cattr ((digits Be 1 (Z.to_N len) ++ body) ++ rest) 0 = Ok (VList [VInt len; VBytes body]) (1 + size body).
Proof.
  intros len body rest H L.
  assert (SZ : forall n, size (digits Be 1 n ++ body) = 1 + size body).
  { intros k. unfold size. rewrite app_length, WriterLemmas.digits_length. lia. }
  destruct (C92_text m U8 (txt "4") 4 len body rest) as (d & e & Hd & He & _ & _ & W & RD).
  - reflexivity.
  - discriminate.
  - exact four.
  - destruct H as [H|[H|[]]]; injection H as <- _; vm_compute; split; discriminate.
  - vm_compute. split; discriminate.
  - destruct H as [H|[H|[]]]; injection H as <- <-.
    + split; [vm_compute; split; discriminate|exists 0%Z; reflexivity].
    + split; [vm_compute; split; discriminate|exists (-1)%Z; reflexivity].
  - unfold allocatable. change (N.to_nat (width_bytes U8)) with 1%nat.
    assert (SA : size ((digits Be 1 (Z.to_N len) ++ body) ++ rest) = 1 + size body + size rest).
    { rewrite <- (SZ (Z.to_N len)). unfold size. rewrite !app_length. lia. }
    rewrite SA. destruct H as [H|[H|[]]]; injection H as _ H; lia.
  - exists d, e. split; [exact Hd|]. split; [exact He|]. split; [exact W|]. change (N.to_nat (width_bytes U8)) with 1%nat in RD. now rewrite SZ in RD.
Qed.

Print Assumptions C92_round_trip.
Print Assumptions C92_text.

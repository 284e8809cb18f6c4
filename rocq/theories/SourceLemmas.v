(** Lemmas for C76. *)
From Coq Require Import Ascii String.
From Verif Require Import Base BaseLemmas Ints Reader Writer Sugar TextSpec Text AttrParse AttrSpec AttrLemmas EnumTextSpec GenExpr GenExprSpec
  GenExprLemmas PropsExpr PropsAttr EnumTextLemmas PropsEnumText GenDecode GenSpec Source SourceSpec Decode Encode Schema.
Close Scope string_scope.

(** ** Expressions *)
Lemma held_fst l : map fst (held l) = map fst l.
Proof. unfold held. rewrite map_map. reflexivity. Qed.
Lemma held_app a b : held (a ++ b) = held a ++ held b.
Proof. apply map_app. Qed.
Lemma find_held y l : find (fun xv : bytes * thing => bytes_eqb y (fst xv)) (held l)
  = option_map (fun xv => (fst xv, Held (snd xv))) (find (fun xv : bytes * val => bytes_eqb y (fst xv)) l).
Proof. induction l as [|[x v] l IH]; [reflexivity|]. cbn. destruct (bytes_eqb y x); [reflexivity|exact IH]. Qed.
Lemma held_scope fields others x :
  decoder_scope (held fields) (held_all others) x = option_map Held (decoder_scope fields others x).
Proof. unfold decoder_scope, held_all. rewrite find_held. destruct (find _ fields) as [[y v]|]; reflexivity. Qed.
Lemma eval_held A scope scope' e : (forall x, scope' x = option_map Held (scope x)) ->
  eval (with_self A) scope' e = option_map Held (eval A scope e).
Proof.
  intros H. induction e as [n|x|e IH f|e IH t|o a IHa b IHb]; cbn.
  - reflexivity.
  - apply H.
  - rewrite IH. destruct (eval A scope e); reflexivity.
  - rewrite IH. destruct (eval A scope e); reflexivity.
  - rewrite IHa, IHb. destruct (eval A scope a); [|reflexivity]. destruct (eval A scope b); reflexivity.
Qed.
Lemma apart_held fields others : apart fields others -> apart (held fields) (held_all others).
Proof.
  intros (S & N & O). unfold apart, held_all. rewrite held_fst. split; [now rewrite S|]. split; [exact N|].
  intros x Hx. now rewrite O.
Qed.
Lemma self_value A fields : NoDup (map fst fields) -> struct_value (with_self A) (held fields) (Self_ fields).
Proof.
  intros D. constructor; [now rewrite held_fst| | |reflexivity]; cbn.
  - intros x v Hi. unfold held in Hi. apply in_map_iff in Hi as ([y w] & E & Hi). cbn in E. injection E as <- <-.
    induction fields as [|[z u] l IH]; [easy|]. cbn [map fst] in D. apply NoDup_cons_iff in D as [Hn D].
    cbn [find fst]. destruct Hi as [[= -> ->]|Hi].
    + now rewrite bytes_eqb_refl.
    + destruct (bytes_eqb y z) eqn:E; [|now apply IH]. apply bytes_eqb_eq in E. subst z. elim Hn. now apply (in_map fst) in Hi.
  - intros x Hx. rewrite held_fst in Hx. destruct (find _ fields) as [[y w]|] eqn:E; [|reflexivity].
    apply find_some in E as [Hi Hb]. cbn in Hb. apply bytes_eqb_eq in Hb. subst y. elim Hx. now apply (in_map fst) in Hi.
Qed.
Lemma usize_name : a_name (txt "usize").
Proof. split; [|discriminate]. split; [left; cbv; split; discriminate|]. repeat (constructor; [left; left; cbv; split; discriminate|]). constructor. Qed.
Lemma isize_name : a_name (txt "isize").
Proof. split; [|discriminate]. split; [left; cbv; split; discriminate|]. repeat (constructor; [left; left; cbv; split; discriminate|]). constructor. Qed.
Lemma var_reads text e : reads_as Disjunction text e -> reads_as Disjunction (var_code false text) (ECast e (txt "usize")).
Proof.
  intros H. apply (whole Cast). unfold var_code. cbn [app].
  replace (txt "(" ++ text ++ txt ") as usize") with (("("%byte :: text ++ [")"%byte]) ++ list_byte_of_string " as " ++ txt "usize").
  2:{ change (txt "(") with ["("%byte]. cbn [app]. f_equal. rewrite <- app_assoc. reflexivity. }
  apply ra_cast; [|exact usize_name]. apply ra_atom, ra_paren, H.
Qed.
Lemma order_reads text e : reads_as Cast text e -> reads_as Disjunction (GenExpr.order_code false text) (ECast e (txt "isize")).
Proof.
  intros H. apply (whole Cast). unfold GenExpr.order_code. cbn [app].
  change (txt " as isize") with (list_byte_of_string " as " ++ txt "isize"). apply ra_cast; [exact H|exact isize_name].
Qed.
Lemma number_decoded A others fields text z : number_is A others fields text z ->
  code_value (with_self A) (decoder_scope (held fields) (held_all others)) (var_code false text) = Some (Held (VInt z)).
Proof.
  intros (e & v & R & E & C). rewrite (C66_text _ _ _ _ _ (var_reads _ _ R)). cbn [eval].
  rewrite (eval_held A (decoder_scope fields others)) by (intros; apply held_scope). rewrite E. cbn [a_cast with_self option_map].
  change (list_byte_of_string "usize") with (txt "usize") in C. now rewrite C.
Qed.
Lemma order_decoded A others fields text z : order_is A others fields text z ->
  code_value (with_self A) (decoder_scope (held fields) (held_all others)) (GenExpr.order_code false text) = Some (Held (VInt z)).
Proof.
  intros (e & v & R & E & C). rewrite (C66_text _ _ _ _ _ (order_reads _ _ R)). cbn [eval].
  rewrite (eval_held A (decoder_scope fields others)) by (intros; apply held_scope). rewrite E. cbn [a_cast with_self option_map].
  change (list_byte_of_string "isize") with (txt "isize") in C. now rewrite C.
Qed.
Lemma number_encoded A others before after text z : NoDup (map fst (before ++ after)) -> apart (before ++ after) others ->
  one_field_first (map fst (before ++ after)) text -> number_is A others before text z ->
  code_value (with_self A) (encoder_scope (Self_ (before ++ after)) (held_all others)) (var_code true text) = Some (Held (VInt z)).
Proof.
  intros D AP O H. apply number_decoded in H.
  destruct (C66_struct _ (with_self A) (held before) (held after) (Self_ (before ++ after)) (held_all others) text _
              ltac:(rewrite <- held_app; now apply self_value) ltac:(rewrite <- held_app; now apply apart_held) H) as [[_ E]|[N _]]; [exact E|].
  elim N. rewrite <- held_app, held_fst. exact O.
Qed.
Lemma order_encoded A others before after text z : NoDup (map fst (before ++ after)) -> apart (before ++ after) others ->
  one_field_first (map fst (before ++ after)) text -> order_is A others before text z ->
  code_value (with_self A) (encoder_scope (Self_ (before ++ after)) (held_all others)) (GenExpr.order_code true text) = Some (Held (VInt z)).
Proof.
  intros D AP O H. apply order_decoded in H.
  destruct (C66_byteorder _ (with_self A) (held before) (held after) (Self_ (before ++ after)) (held_all others) text _
              ltac:(rewrite <- held_app; now apply self_value) ltac:(rewrite <- held_app; now apply apart_held) H) as [[_ E]|[N _]]; [exact E|].
  elim N. rewrite <- held_app, held_fst. exact O.
Qed.

(** ** Two specifications that the encoder cannot tell apart in [en] *)
Definition same_order (en : env) (a b : option order_attr) : Prop :=
  match a, b with
  | None, None => True
  | Some (OConst x), Some (OConst y) => x = y
  | Some (OVar x), Some (OVar y) => x en = y en
  | _, _ => False
  end.
Definition same_expr (en : env) (a b : option expr) : Prop :=
  match a, b with None, None => True | Some x, Some y => x en = y en | _, _ => False end.
Record alike (en : env) (f g : fspec) : Prop := mkalike {
  al_use : f_use f = f_use g; al_order : same_order en (f_order f) (f_order g);
  al_length : same_expr en (f_length f) (f_length g); al_count : same_expr en (f_count f) (f_count g);
  al_try : same_expr en (f_try_count f) (f_try_count g); al_branch : same_expr en (f_branch f) (f_branch g);
  al_bits : same_expr en (f_bits f) (f_bits g); al_start : f_bits_start f = f_bits_start g;
  al_bc : same_expr en (f_byte_count f) (f_byte_count g); al_bco : same_expr en (f_byte_count_outside f) (f_byte_count_outside g);
  al_rem : f_remaining f = f_remaining g; al_key : f_key f = f_key g; al_split : f_split f = f_split g;
  al_linend : f_linend f = f_linend g; al_loop : f_loop f = f_loop g; al_offset : same_expr en (f_offset f) (f_offset g);
  al_full : f_full f = f_full g; al_untake : f_untake f = f_untake g; al_skip : f_skip_encode f = f_skip_encode g;
  al_str : f_from_str f = f_from_str g; al_ve : f_value_encode f = f_value_encode g; al_we : f_with_encode f = f_with_encode g }.
Lemma same_expr_eval en a b : same_expr en a b -> eval_opt a en = eval_opt b en.
Proof. destruct a, b; cbn; intros H; try contradiction; [now rewrite H|reflexivity]. Qed.
Lemma alike_modifiers en f g : alike en f g -> modifiers f en = modifiers g en.
Proof.
  intros []. unfold modifiers. rewrite <- al_use0. destruct (f_use f); [|reflexivity].
  assert (E : match f_order f with
              | None => Some None | Some (OConst b) => Some (Some b)
              | Some (OVar e) => if Z.eqb (cast Isize (e en)) 0 then Some (Some Be) else if Z.eqb (cast Isize (e en)) 1 then Some (Some Le) else None
              end = match f_order g with
              | None => Some None | Some (OConst b) => Some (Some b)
              | Some (OVar e) => if Z.eqb (cast Isize (e en)) 0 then Some (Some Be) else if Z.eqb (cast Isize (e en)) 1 then Some (Some Le) else None
              end).
  { destruct (f_order f) as [[]|], (f_order g) as [[]|]; cbn in *; try contradiction; rewrite ?al_order0; reflexivity. }
  rewrite E. rewrite (same_expr_eval _ _ _ al_length0), (same_expr_eval _ _ _ al_count0), (same_expr_eval _ _ _ al_try0),
    (same_expr_eval _ _ _ al_branch0), (same_expr_eval _ _ _ al_bits0), (same_expr_eval _ _ _ al_bc0),
    (same_expr_eval _ _ _ al_bco0), al_start0, al_rem0, al_key0, al_split0, al_linend0, al_loop0. reflexivity.
Qed.
Lemma alike_field en f g e ca fa v : alike en f g -> enc_field e f ca fa en v = enc_field e g ca fa en v.
Proof.
  intros []. unfold enc_field, enc_offset. rewrite al_we0, al_skip0, al_str0, al_untake0, al_ve0, al_full0, (same_expr_eval _ _ _ al_offset0).
  destruct (f_bits f), (f_bits g); cbn in al_bits0; try contradiction; reflexivity.
Qed.
Lemma alike_fields ety inherit vars ca : forall fs gs prev done vs, Forall2 (fun f g => snd f = snd g) fs gs ->
  (forall i f g, nth_error fs i = Some f -> nth_error gs i = Some g -> alike (mkenv (done ++ firstn i vs) vars) (fst f) (fst g)) ->
  forall b, enc_fields ety inherit vars ca fs prev done vs b = enc_fields ety inherit vars ca gs prev done vs b.
Proof.
  intros fs gs prev done vs HT. revert prev done vs. induction HT as [|[f t] [g t'] fs gs E HT IH]; intros prev done vs HA b.
  - reflexivity.
  - cbn in E. subst t'. destruct vs as [|v vs]; [reflexivity|]. cbn [enc_fields].
    pose proof (HA 0%nat _ _ eq_refl eq_refl) as H0. cbn in H0. rewrite app_nil_r in H0.
    rewrite (alike_modifiers _ _ _ H0). destruct (modifiers g _) as [own|]; [|reflexivity]. cbv zeta.
    rewrite (al_use _ _ _ H0). unfold plus, wbind. rewrite (alike_field _ _ _ _ _ _ _ H0). destruct (enc_field _ _ _ _ _ _ b) as [x b'|e b'| |]; try reflexivity.
    rewrite (IH (if inherit && negb (f_use g) then prev else own) (done ++ [v]) vs); [reflexivity|]. intros i f' g' Hf Hg. rewrite <- app_assoc. exact (HA (S i) _ _ Hf Hg).
Qed.

(** ** Entries *)
Definition number_ok (m m' : meaning) (en : env) (e : entry) : Prop :=
  match e with
  | Tag _ => True
  | Property k lit => forall s, string_literal lit s ->
      (called k number_keys -> expression s -> m_number m s en = m_number m' s en) /\
      (called k ["byteorder"%string] -> ~ called s ["BE"; ">"; "0"; "LE"; "<"; "1"]%string -> m_order m s en = m_order m' s en)
  end.
Lemma called_sub k l l' : called k l -> incl l l' -> called k l'.
Proof. unfold called. rewrite !in_map_iff. intros (s & E & H) I. exists s. auto. Qed.
Ltac finish_alike := let H := fresh in intros ? ? H; destruct H; constructor; cbn; auto.
Lemma says_alike N O N' O' m en e g :
  let M := with_numbers N O m in let M' := with_numbers N' O' m in
  number_ok M M' en e -> says M e g ->
  exists g', says M' e g' /\ forall f f', alike en f f' -> alike en (g f) (g' f').
Proof.
  cbv zeta. intros NO S.
  assert (D : forall k lit x, e = Property k lit -> called k number_keys -> denotes (with_numbers N O m) lit x ->
                exists x', denotes (with_numbers N' O' m) lit x' /\ x en = x' en).
  { intros k lit x -> K H. destruct H as [lit s n Q W L|lit s Q X]; eexists; split.
    - eapply denotes_number; eassumption.
    - reflexivity.
    - eapply denotes_expression; eassumption.
    - apply (proj1 (NO _ Q)); assumption. }
  destruct S.
  all: try match goal with H : denotes _ _ _ |- _ =>
         edestruct D as (x' & D' & E); [reflexivity|eapply called_sub; [eassumption|intros ?; cbn; tauto]|exact H|] end.
  - eexists; split; [apply says_untake|finish_alike].
  - eexists; split; [apply says_remaining|finish_alike].
  - eexists; split; [apply says_bits_flag|finish_alike].
  - eexists; split; [apply says_skip|finish_alike].
  - eexists; split; [apply says_skip_encode|finish_alike].
  - eexists; split; [apply says_skip_decode|finish_alike].
  - eexists; split; [apply says_from_str|finish_alike].
  - eexists; split; [eapply says_big; eassumption|finish_alike].
  - eexists; split; [eapply says_little; eassumption|finish_alike].
  - eexists; split; [eapply says_order; eassumption|finish_alike].
    match goal with H : string_literal _ _ |- _ => destruct (NO _ H) as [_ X] end. apply X; assumption.
  - eexists; split; [eapply says_length; eassumption|finish_alike].
  - eexists; split; [eapply says_offset; eassumption|finish_alike].
  - eexists; split; [eapply says_count; eassumption|finish_alike].
  - eexists; split; [eapply says_try_count; eassumption|finish_alike].
  - eexists; split; [eapply says_branch; eassumption|finish_alike].
  - eexists; split; [eapply says_bits; eassumption|finish_alike].
  - eexists; split; [eapply says_bits_start; eassumption|finish_alike].
  - eexists; split; [eapply says_byte_count; eassumption|finish_alike].
  - eexists; split; [eapply says_outside; eassumption|finish_alike].
  - eexists; split; [eapply says_full; eassumption|finish_alike].
  - eexists; split; [eapply says_key; eassumption|finish_alike].
  - eexists; split; [eapply says_split; eassumption|finish_alike].
  - eexists; split; [eapply says_linend; eassumption|finish_alike].
  - eexists; split; [eapply says_loop; eassumption|finish_alike].
  - eexists; split; [eapply says_if; eassumption|finish_alike].
  - eexists; split; [eapply says_value_decode; eassumption|finish_alike].
  - eexists; split; [eapply says_value_encode; eassumption|finish_alike].
  - eexists; split; [eapply says_check; eassumption|finish_alike].
  - eexists; split; [eapply says_variables; eassumption|finish_alike].
Qed.
Lemma alike_refl en f : alike en f f.
Proof.
  assert (X : forall a, same_expr en a a) by (intros []; cbn; auto).
  constructor; auto. destruct (f_order f) as [[]|]; cbn; auto.
Qed.
Lemma entries_alike N O N' O' m en l gs : 
  let M := with_numbers N O m in let M' := with_numbers N' O' m in
  Forall (number_ok M M' en) l -> Forall2 (says M) l gs ->
  exists gs', Forall2 (says M') l gs' /\
    forall f f', alike en f f' -> alike en (fold_left (fun f g => g f) gs f) (fold_left (fun f g => g f) gs' f').
Proof.
  cbv zeta. intros HN HS. induction HS as [|e g l gs S HS IH]; [exists []; split; [constructor|auto]|].
  inversion HN as [|? ? NO HN']; subst. destruct (IH HN') as (gs' & F & HA).
  destruct (says_alike _ _ _ _ _ _ _ _ NO S) as (g' & S' & G). exists (g' :: gs'). split; [now constructor|].
  intros f f' Hf. cbn. apply HA, G, Hf.
Qed.

(** ** Lines *)
Lemma combine_split {A B} i (l : list A) (r : list B) : combine l r = combine (firstn i l) (firstn i r) ++ combine (skipn i l) (skipn i r).
Proof. revert l r. induction i as [|i IH]; intros [|a l] [|b r]; cbn; try reflexivity; [destruct (skipn i l); reflexivity|]. now rewrite IH. Qed.
Lemma map_fst_combine {A B} (l : list A) (r : list B) : (length l <= length r)%nat -> map fst (combine l r) = l.
Proof. revert r. induction l as [|a l IH]; intros [|b r] H; cbn in *; try reflexivity; [lia|]. rewrite IH by lia. reflexivity. Qed.
Lemma numbers_agree : forall A others names vs text i vars z, let before := combine (firstn i names) (firstn i vs) in
  number_is A others before text z ->
  decoder_number A others var_code (firstn i names) text (mkenv (firstn i vs) vars) = z /\
  (NoDup names -> length vs = length names -> apart (combine names vs) others -> one_field_first names text ->
   forall en, encoder_number A others var_code names vs text en = z).
Proof.
  intros A others names vs text i vars z before H. split.
  - unfold decoder_number. cbn [ev_fields]. fold before. now rewrite (number_decoded _ _ _ _ _ H).
  - intros D L AP O en. unfold encoder_number.
    assert (E : combine names vs = before ++ combine (skipn i names) (skipn i vs)) by apply combine_split.
    assert (F : map fst (combine names vs) = names) by (apply map_fst_combine; lia).
    rewrite E in F. rewrite E. rewrite number_encoded with (z := z); [reflexivity|now rewrite F|now rewrite <- E|now rewrite F|exact H].
Qed.
Lemma orders_agree : forall A others names vs text i vars z, let before := combine (firstn i names) (firstn i vs) in
  order_is A others before text z ->
  decoder_number A others GenExpr.order_code (firstn i names) text (mkenv (firstn i vs) vars) = z /\
  (NoDup names -> length vs = length names -> apart (combine names vs) others -> one_field_first names text ->
   forall en, encoder_number A others GenExpr.order_code names vs text en = z).
Proof.
  intros A others names vs text i vars z before H. split.
  - unfold decoder_number. cbn [ev_fields]. fold before. now rewrite (order_decoded _ _ _ _ _ H).
  - intros D L AP O en. unfold encoder_number.
    assert (E : combine names vs = before ++ combine (skipn i names) (skipn i vs)) by apply combine_split.
    assert (F : map fst (combine names vs) = names) by (apply map_fst_combine; lia).
    rewrite E in F. rewrite E. rewrite order_encoded with (z := z); [reflexivity|now rewrite F|now rewrite <- E|now rewrite F|exact H].
Qed.

Lemma alike_sym en f g : alike en f g -> alike en g f.
Proof.
  assert (X : forall a b, same_expr en a b -> same_expr en b a) by (intros [] []; cbn; auto).
  intros []. constructor; auto. destruct (f_order f) as [[]|], (f_order g) as [[]|]; cbn in *; auto.
Qed.
Lemma first_line_parsed lines l : first_line ["jbytes"%string] lines l ->
  ~ (exists a, In a lines /\ called (t_name a) ["default"%string]) ->
  attributes_of lines = attributes_of [jbytes_line l].
Proof.
  intros H D.
  assert (K : forall x, called x ["jbytes"%string] <-> x = txt "jbytes") by (intros; unfold called; cbn; intuition).
  assert (K' : forall x, called x ["default"%string] <-> x = txt "default") by (intros; unfold called; cbn; intuition).
  destruct H as [(before & a & more & -> & T & <- & N)|[-> N]].
  - induction before as [|b before IH]; cbn [app].
    + apply K in T. destruct a as [n es]. cbn in T |- *. subst n. apply C50_first_line.
    + rewrite C50_other_lines.
      * apply IH; first [intros (x & Hx & Hd); apply D; exists x; split; [now right|exact Hd]|intros b0 Hb; apply N; now right].
      * intros E. apply (N b); [now left|]. now apply K.
      * intros E. apply D. exists b. split; [now left|]. now apply K'.
  - induction lines as [|b lines IH]; [reflexivity|]. rewrite C50_other_lines.
    + apply IH; first [intros (x & Hx & Hd); apply D; exists x; split; [now right|exact Hd]|intros b0 Hb; apply N; now right].
    + intros E. apply (N b); [now left|]. now apply K.
    + intros E. apply D. exists b. split; [now left|]. now apply K'.
Qed.
Lemma decided_nil {X} (about : entry -> X -> Prop) o : decided about [] o -> o = None.
Proof. intros H. inversion H as [|l e r a ? ? E]; [reflexivity|]. destruct l; discriminate. Qed.
Lemma read_line_called x : called x ["jbytes"; "repr"]%string <-> bytes_eqb x (txt "jbytes") || bytes_eqb x (txt "repr") = true.
Proof. rewrite orb_true_iff, !bytes_eqb_iff. unfold called. cbn. intuition. Qed.
Lemma first_found lines l : first_line ["jbytes"; "repr"]%string lines l ->
  match find (fun a => bytes_eqb (t_name a) (txt "jbytes") || bytes_eqb (t_name a) (txt "repr")) lines with
  | Some a => t_entries a = l
  | None => l = []
  end.
Proof.
  intros [(before & a & more & -> & T & <- & N)|[-> N]].
  - induction before as [|b before IH]; cbn [app find].
    + apply read_line_called in T. now rewrite T.
    + destruct (bytes_eqb (t_name b) (txt "jbytes") || bytes_eqb (t_name b) (txt "repr")) eqn:E.
      * elim (N b); [now left|]. now apply read_line_called.
      * apply IH. intros b' Hb. apply N. now right.
  - destruct (find _ lines) as [a|] eqn:E; [|reflexivity]. apply find_some in E as [Hi E]. elim (N a Hi). now apply read_line_called.
Qed.
Lemma container_parsed lines c l : first_line ["jbytes"; "repr"]%string lines l -> Forall container_entry l ->
  decided about_order l (c_order c) -> decided about_width l (c_byte_count c) ->
  exists ca, container_attributes_of lines = Some ca /\
    match (if container_used lines then Some (container_spec ca) else None) with Some c => c | None => no_cspec end = c.
Proof.
  intros H HE HO HW. pose proof (first_found _ _ H) as FA. unfold container_used.
  destruct H as [(before & a & more & -> & T & <- & N)|[-> N]].
  - destruct (C63_container before a more N T HE) as (ca & -> & DO & DW & _). exists ca. split; [reflexivity|].
    destruct (C63_determined (t_entries a)) as (XO & XW & _).
    assert (E : c_order (e_c (enum_spec ca)) = c_order c) by (eapply XO; eassumption).
    assert (E' : c_byte_count (e_c (enum_spec ca)) = c_byte_count c) by (eapply XW; eassumption).
    destruct c as [o n]. cbn [c_order c_byte_count] in *. destruct (find _ _) as [a'|].
    + rewrite FA. destruct (t_entries a) as [|e r].
      * apply decided_nil in HO. apply decided_nil in HW. now subst.
      * change (e_c (enum_spec ca)) with (container_spec ca) in *. destruct (container_spec ca). cbn in *. congruence.
    + rewrite FA in HO, HW. apply decided_nil in HO. apply decided_nil in HW. now subst.
  - destruct (C63_no_line lines N) as (ca & -> & _). exists ca. split; [reflexivity|].
    apply decided_nil in HO. apply decided_nil in HW. destruct c. cbn in *. subst. destruct (find _ lines) as [a|]; [|reflexivity]. now rewrite FA.
Qed.
Lemma container_read lines c :
  (exists l, first_line ["jbytes"; "repr"]%string lines l /\ Forall container_entry l /\ Forall own_codec l /\
     decided about_order l (c_order c) /\ decided about_width l (c_byte_count c)) ->
  exists ca, container_attributes_of lines = Some ca /\ container_other lines = false /\
    match (if container_used lines then Some (container_spec ca) else None) with Some c => c | None => no_cspec end = c.
Proof.
  intros (l & H & HE & HP & HO & HW). destruct (container_parsed _ _ _ H HE HO HW) as (ca & E & E'). exists ca.
  split; [exact E|]. split; [|exact E']. apply first_found in H. unfold container_other. destruct (find _ lines) as [a|]; [|reflexivity].
  rewrite H. clear - HP. induction HP as [|[i|k lit] r P _ IH]; [reflexivity|exact IH|]. cbn [existsb].
  destruct (existsb (bytes_eqb k) _) eqn:E; [|exact IH]. elim P. now apply called_eqb.
Qed.

(** ** Fields *)
Lemma fields_read numbers before fs l : fields_mean numbers before fs l ->
  exists out, read_fields numbers before fs = Some out /\ nameless out = l /\ map n_name out = map s_name fs /\
    (forall f, In f out -> f_vars (n_spec f) = []).
Proof.
  intros H. induction H as [before|before f r l gs more L D S V H (out & R & E & EN & EV)].
  - exists []. repeat split. easy.
  - destruct (C50_all _ _ _ S) as (fa & P & Q). cbn [read_fields]. rewrite (first_line_parsed _ _ L D), P, R.
    unfold field_meaning in Q. rewrite Q. eexists. split; [reflexivity|]. unfold nameless in *. cbn [map n_spec n_type n_name].
    rewrite E, EN. repeat split. intros f' [<-|Hf]; [|now apply EV]. cbn [n_spec].
    clear - S V. assert (X : f_vars plain = []) by reflexivity. revert X. generalize plain.
    induction S as [|e g l gs S _ IH]; intros p X; [exact X|]. cbn [fold_left]. apply IH.
    + intros k lit Hk. apply (V k lit). now right.
    + destruct S; try exact X. elim (V k lit); [now left|assumption].
Qed.
Lemma fields_written A others vs vars names : NoDup names -> length vs = length names -> apart (combine names vs) others ->
  forall before fs l, field_says A others before fs l -> names = before ++ map s_name fs ->
  (forall i f l, nth_error fs i = Some f -> first_line ["jbytes"%string] (s_lines f) l ->
     Forall (writable A others names (combine (firstn (length before + i) names) (firstn (length before + i) vs))) l) ->
  exists out, read_fields (fun code _ => encoder_number A others code names vs) before fs = Some out /\
    map n_name out = map s_name fs /\ Forall2 (fun f g => snd f = snd g) (nameless out) l /\
    (forall i f g, nth_error (nameless out) i = Some f -> nth_error l i = Some g ->
       alike (mkenv (firstn (length before + i) vs) vars) (fst f) (fst g)).
Proof.
  intros HD HL HA before fs l H. induction H as [before|before f r l gs more L D S V H IH]; intros HN HW.
  - exists []. split; [reflexivity|]. split; [reflexivity|]. split; [apply Forall2_nil|]. intros [|i]; discriminate.
  - destruct IH as (out & R & EN & ET & EA).
    { rewrite HN, <- app_assoc. reflexivity. }
    { intros i f' l' Hi Hl. rewrite app_length. cbn [length]. replace (length before + 1 + i)%nat with (length before + Datatypes.S i)%nat by lia. exact (HW (Datatypes.S i) f' l' Hi Hl). }
    pose proof (HW 0%nat f l eq_refl L) as HW0. rewrite Nat.add_0_r in HW0.
    assert (EB : firstn (length before) names = before) by (rewrite HN; rewrite firstn_app, Nat.sub_diag, firstn_all; cbn; apply app_nil_r).
    set (M := with_numbers (encoder_number A others var_code names vs) (encoder_number A others GenExpr.order_code names vs) (s_meaning f)).
    destruct (entries_alike (decoder_number A others var_code before) (decoder_number A others GenExpr.order_code before)
                (encoder_number A others var_code names vs) (encoder_number A others GenExpr.order_code names vs) (s_meaning f)
                (mkenv (firstn (length before) vs) vars) l gs) as (gs' & S' & G).
    { eapply Forall_impl; [|exact HW0]. intros [i|k lit] W; [exact Logic.I|]. intros s Q. destruct (W s Q) as [W1 W2]. cbn [m_number m_order with_numbers]. split.
      - intros K X. destruct (W1 K X) as (O & z & Z). destruct (numbers_agree A others names vs s (length before) vars z) as [E1 E2]; [exact Z|].
        rewrite EB in E1. rewrite E1. symmetry. now apply E2.
      - intros K X. destruct (W2 K X) as (O & z & Z). destruct (orders_agree A others names vs s (length before) vars z) as [E1 E2]; [exact Z|].
        rewrite EB in E1. rewrite E1. symmetry. now apply E2. }
    { exact S. }
    destruct (C50_all _ _ _ S') as (fa & P & Q). cbn [read_fields]. rewrite (first_line_parsed _ _ L D), P, R, Q.
    eexists. split; [reflexivity|]. unfold nameless in *. cbn [map n_spec n_type n_name]. rewrite EN. split; [reflexivity|]. split; [constructor; [reflexivity|exact ET]|].
    intros [|i] f' g' Hf Hg; cbn [nth_error] in Hf, Hg.
      * injection Hf as <-. injection Hg as <-. cbn [fst]. rewrite Nat.add_0_r. apply alike_sym, G, alike_refl.
      * rewrite app_length in EA. cbn [length] in EA. replace (length before + Datatypes.S i)%nat with (length before + 1 + i)%nat by lia. now apply EA.
Qed.

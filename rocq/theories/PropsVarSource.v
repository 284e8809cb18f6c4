(** C84: variables handed from one struct to another, by name. *)
From Coq Require Import Ascii String.
From Verif Require Import Base BaseLemmas Ints SpecOps Reader Writer Sugar TextSpec Text AttrParse AttrSpec AttrLemmas EnumTextSpec EnumTextLemmas GenExpr GenExprSpec
  GenExprLemmas PropsExpr PropsAttr GenDecode GenSpec PropsGen Source SourceSpec SourceLemmas PropsSource FieldSpec PropsModifiers
  Decode Collections Containers NetLemmas Examples VarSource VarSourceSpec VarSourceLemmas Schema.
Close Scope string_scope.

(** What a nested struct finds under the names it asks for: the values of the fields of the
    outer struct that have been published under them, or 0. *)
Theorem C84_variables : forall A others key fs l vs gets others' x, (forall x y, key x = key y -> x = y) ->
  fields_hand A others key [] [] fs l -> NoDup (map s_name fs) -> length vs = length fs -> Forall a_name gets ->
  let vars := rev (published [] (map fst l) [] vs) in
  (In x gets -> forall n, hands fs vs x n -> asked key gets vars others' x = Some (VInt (Z.of_N n))) /\
  (~ In x gets -> asked key gets vars others' x = others' x).
Proof.
  intros A others key fs l vs gets others' x K H ND HL G vars. split; [|now apply asked_out].
  intros I n HN. rewrite (asked_in _ _ _ _ _ G I). unfold vars.
  assert (Hx : a_name x) by (rewrite Forall_forall in G; now apply G).
  destruct HN as [i j f z Hf P Hj Hx' Hv|N].
  - rewrite (find_latest A others key [] [] K [] fs l H [] vs i j f x z); auto.
  - destruct (find _ _) as [[k m]|] eqn:E; [|reflexivity]. exfalso. apply find_some in E as [I' E]. apply in_rev in I'. cbn [fst] in E.
    apply Nat.eqb_eq in E. subst k. destruct (found_publisher A others key [] [] K _ _ _ H _ _ _ _ I') as (f & F & P). exact (N f F P).
Qed.

Lemma eval_ext A (s s' : bytes -> option val) e : (forall x, s x = s' x) -> eval A s e = eval A s' e.
Proof. intros H. induction e as [n|x|e IH f|e IH t|o a IHa b IHb]; cbn; rewrite ?IH, ?IHa, ?IHb; auto. Qed.
(** So an expression in the nested struct has the number it stands for, with these values. *)
Theorem C84_numbers : forall A others key fs l vs gets others' scope before bs text z, (forall x y, key x = key y -> x = y) ->
  fields_hand A others key [] [] fs l -> NoDup (map s_name fs) -> length vs = length fs -> Forall a_name gets ->
  in_scope gets fs vs others' scope ->
  let en := mkenv bs (rev (published [] (map fst l) [] vs)) in
  (number_is A scope (combine before bs) text z -> handed_number A others' key gets var_code before text en = z) /\
  (order_is A scope (combine before bs) text z -> handed_number A others' key gets GenExpr.order_code before text en = z).
Proof.
  intros A others key fs l vs gets others' scope before bs text z K H ND HL G SC en.
  assert (E : forall x, scope x = asked key gets (ev_vars en) others' x).
  { intros x. destruct (C84_variables A others key fs l vs gets others' x K H ND HL G) as [X Y]. cbv zeta in X, Y. cbn [en ev_vars].
    assert (DX : In x gets \/ ~ In x gets).
    { destruct (in_dec (list_eq_dec Byte.byte_eq_dec) x gets); auto. }
    destruct (SC x) as [S1 S2]. destruct DX as [I|I]; [|rewrite (Y I); auto].
    destruct (S1 I) as (n & HN & ->). symmetry. now apply X. }
  assert (ES : forall x, decoder_scope (combine before bs) scope x = decoder_scope (combine before bs) (asked key gets (ev_vars en) others') x).
  { intros x. unfold decoder_scope. destruct (find _ _) as [[y v]|]; [reflexivity|apply E]. }
  split; intros (e & v & R & EV & C); unfold handed_number, decoder_number; cbn [ev_fields en].
  - rewrite (number_decoded _ _ _ text z); [reflexivity|]. exists e, v. split; [exact R|]. split; [|exact C]. rewrite <- EV. symmetry. now apply eval_ext.
  - rewrite (order_decoded _ _ _ text z); [reflexivity|]. exists e, v. split; [exact R|]. split; [|exact C]. rewrite <- EV. symmetry. now apply eval_ext.
Qed.

Lemma no_codec_read lines l : first_line ["jbytes"; "repr"]%string lines l -> Forall no_codec l -> container_codec lines = false.
Proof.
  intros H HP. apply first_found in H. unfold container_codec. destruct (find _ lines) as [a|]; [|reflexivity].
  rewrite H. clear - HP. induction HP as [|[i|k lit] r P _ IH]; [reflexivity|exact IH|]. cbn [existsb].
  destruct (existsb (bytes_eqb k) _) eqn:E; [|exact IH]. elim P. now apply called_eqb.
Qed.
Lemma decided_names (w : string) l names : decided (about_names w) l names -> Forall a_name (match names with Some xs => xs | None => [] end).
Proof. intros []; [constructor|]. destruct H as (k & lit & _ & _ & _ & F & _). exact F. Qed.
Lemma all_usable taken gets : Forall a_name gets -> Forall (fun x => ~ In x taken) gets -> forallb (usable taken) gets = true.
Proof.
  intros G O. apply forallb_forall. intros x Hx. rewrite Forall_forall in G, O. unfold usable. rewrite (bound_name _ (G _ Hx)).
  destruct (existsb (bytes_eqb x) taken) eqn:E; [|reflexivity]. apply existsb_exists in E as (y & I & E). apply bytes_eqb_eq in E. subst y.
  elim (O _ Hx I).
Qed.
(** The same without a word about codecs. *)
Lemma handing_fields_derived A others key s gets c l ls : first_line ["jbytes"; "repr"]%string (s_container s) ls -> Forall container_entry ls ->
  decided about_order ls (c_order c) -> decided about_width ls (c_byte_count c) -> asks_for ls gets ->
  fields_hand A others key gets [] (s_fields s) l ->
  exists ca fs, handing_fields_decoder A others key s = Some (mkdecl true (if container_used (s_container s) then Some (container_spec ca) else None) (Some fs)) /\
    match (if container_used (s_container s) then Some (container_spec ca) else None) with Some c => c | None => no_cspec end = c /\
    nameless fs = l /\ map n_name fs = map s_name (s_fields s).
Proof.
  intros L CE DO DW (names & DN & W & EG & OV) HF. unfold handing_fields_decoder.
  destruct (container_parsed _ _ _ L CE DO DW) as (ca & -> & EC). rewrite (asked_read _ _ _ L DN W).
  pose proof (decided_names _ _ _ DN) as G. rewrite <- EG in *. exists ca.
  rewrite (all_usable taken_names gets G OV). cbn [negb]. destruct (handing_read _ _ _ _ _ _ _ HF) as (fs & -> & EN & ET). exists fs. auto.
Qed.
Lemma handing_derived A others key s gets c l : source_hands A others key s gets c l ->
  exists ca fs, handing_decoder A others key s = Some (mkdecl true (if container_used (s_container s) then Some (container_spec ca) else None) (Some fs)) /\
    match (if container_used (s_container s) then Some (container_spec ca) else None) with Some c => c | None => no_cspec end = c /\
    nameless fs = l /\ map n_name fs = map s_name (s_fields s).
Proof.
  intros [(ls & L & CE & NC & DO & DW & AF) HF]. unfold handing_decoder. rewrite (no_codec_read _ _ L NC).
  exact (handing_fields_derived _ _ _ _ _ _ _ _ L CE DO DW AF HF).
Qed.
(** The decoder is derived for the type the text describes. *)
Theorem C84_decoder : forall A others key s gets c l, source_hands A others key s gets c l ->
  exists d fs, handing_decoder A others key s = Some d /\ d_fields d = Some fs /\ d_named d = true /\
    GenDecode.container_of d = c /\ nameless fs = l /\ map n_name fs = map s_name (s_fields s).
Proof.
  intros A others key s gets c l H. destruct (handing_derived _ _ _ _ _ _ _ H) as (ca & fs & E & EC & EN & ET).
  eexists _, fs. split; [exact E|]. repeat split; assumption.
Qed.

Lemma no_publishers A others key gets before fs l : fields_hand A others key gets before fs l ->
  (forall f x, In f fs -> ~ publishes f x) -> forall ft, In ft l -> f_vars (fst ft) = [].
Proof.
  intros H. induction H as [before|before f r l gs names more L D S V W H IH]; intros N ft I; [destruct I|].
  destruct I as [<-|I].
  - cbn [fst f_vars set_vars]. destruct (match names with Some xs => xs | None => [] end) as [|x xs] eqn:E; [reflexivity|].
    elim (N f x); [now left|]. apply (publishes_names f l names x L V W). rewrite E. now left.
  - apply IH; [|exact I]. intros f' x Hf. apply N. now right.
Qed.
Lemma own_not_reserved x : own_name x -> ~ In x reserved.
Proof. intros [H _] I. apply H. revert I. apply incl_map. intros y. cbn. tauto. Qed.

Lemma hand_length A others key gets before fs l : fields_hand A others key gets before fs l -> length l = length fs.
Proof. intros H. induction H; cbn [length]; auto. Qed.
Lemma hand_prefix A others key gets g f : forall fs before l, fields_hand A others key gets before (fs ++ [f]) (l ++ [g]) ->
  fields_hand A others key gets before fs l.
Proof.
  induction fs as [|x fs IH]; intros before l H.
  - pose proof (hand_length _ _ _ _ _ _ _ H) as E. rewrite app_length in E. destruct l; [constructor|cbn in E; lia].
  - destruct l as [|y l].
    + pose proof (hand_length _ _ _ _ _ _ _ H) as E. rewrite !app_length in E. cbn in E. lia.
    + cbn [app] in H. inversion H; subst. econstructor; eauto.
Qed.

Lemma nested_last A others key s0 fs f c0 l0 g t :
  source_hands A others key s0 [] c0 (l0 ++ [(g, t)]) -> s_container s0 = [] -> s_fields s0 = fs ++ [f] ->
  NoDup (map s_name (s_fields s0)) -> (forall x, In x (map s_name (s_fields s0)) -> own_name x) ->
  written g -> for_the_codec g ->
  exists d0, handing_decoder A others key s0 = Some d0 /\ struct_compiles d0 [] = true /\ fields_hand A others key [] [] fs l0 /\
    forall d p vs q, dec (TStruct true c0 l0) no_cattr no_fattr d p = Ok (VList vs) q ->
      length vs = length fs /\
      forall fa, conveys g (mkenv vs []) fa ->
        run_struct dec d0 no_cattr d p =
        match dec t (container_with c0 (published [] (map fst l0) [] vs)) fa d q with
        | Ok v r => Ok (VList (vs ++ [v])) r
        | Err e r => Err e r
        | Panic => Panic
        | Hang => Hang
        end.
Proof.
  intros H0 HC HF ND0 ON0 HG HG'.
  destruct (handing_derived _ _ _ _ _ _ _ H0) as (ca0 & fs0 & E0 & EC0 & EN0 & ET0).
  rewrite HC in E0, EC0. cbn [container_used find] in E0, EC0. subst c0. eexists. split; [exact E0|].
  set (d0 := mkdecl true None (Some fs0)).
  assert (K0 : struct_compiles d0 [] = true /\ ~ position_taken fs0).
  { apply C65_compiles; [reflexivity|now rewrite ET0| |easy|now left]. intros h Hg. apply own_not_reserved, ON0. rewrite <- ET0. now apply in_map. }
  split; [apply K0|].
  assert (HP : fields_hand A others key [] [] fs l0).
  { destruct H0 as [_ H0]. rewrite HF in H0. exact (hand_prefix _ _ _ _ _ _ _ _ _ H0). }
  split; [exact HP|]. intros d p vs q HD. split.
  { rewrite <- (hand_length _ _ _ _ _ _ _ HP). cbn [dec] in HD. apply map_ok in HD as (vs' & HD & E). injection E as ->.
    destruct (dec_fields_length _ _ _ _ _ _ _ _ _ _ HD) as (ws & -> & L). exact L. }
  intros fa CV. rewrite (C65_struct d0 fs0 no_cattr no_fattr d p eq_refl (proj1 K0) (proj2 K0)).
  change (d_named d0) with true. rewrite EN0. change (GenDecode.container_of d0) with no_cspec.
  destruct (C53_decode no_cspec l0 g t no_cattr no_fattr d p vs q HG HG' HD) as [X _]. exact (X fa CV).
Qed.
(** A struct with a nested struct as its last field, both as written: they compile, and the
    nested one is decoded behind the fields before it with the variables these publish. *)
Theorem C84_nested : forall A others key s0 s1 fs f c0 l0 gets c1 l1,
  source_hands A others key s0 [] c0 (l0 ++ [(plain, TStruct true c1 l1)]) -> s_container s0 = [] ->
  s_fields s0 = fs ++ [f] ->
  source_hands A others key s1 gets c1 l1 -> (forall g x, In g (s_fields s1) -> ~ publishes g x) ->
  NoDup (map s_name (s_fields s0)) -> (forall x, In x (map s_name (s_fields s0)) -> own_name x) ->
  NoDup (map s_name (s_fields s1)) -> (forall x, In x (map s_name (s_fields s1)) -> own_name x) ->
  exists d0 d1, handing_decoder A others key s0 = Some d0 /\ handing_decoder A others key s1 = Some d1 /\
    struct_compiles d0 [] = true /\ (forall vars, struct_compiles d1 vars = true) /\
    fields_hand A others key [] [] fs l0 /\
    forall d p vs q, dec (TStruct true c0 l0) no_cattr no_fattr d p = Ok (VList vs) q ->
      length vs = length fs /\
      run_struct dec d0 no_cattr d p =
      match run_struct dec d1 (container_with c0 (published [] (map fst l0) [] vs)) d q with
      | Ok v r => Ok (VList (vs ++ [v])) r
      | Err e r => Err e r
      | Panic => Panic
      | Hang => Hang
      end.
Proof.
  intros A others key s0 s1 fs f c0 l0 gets c1 l1 H0 HC HF H1 NP ND0 ON0 ND1 ON1.
  destruct (nested_last _ _ _ _ _ _ _ _ _ _ H0 HC HF ND0 ON0 (or_intror eq_refl) ltac:(repeat split)) as (d0 & E0 & K0 & HP & X).
  destruct (handing_derived _ _ _ _ _ _ _ H1) as (ca1 & fs1 & E1 & EC1 & EN1 & ET1).
  eexists d0, _. split; [exact E0|]. split; [exact E1|].
  set (o := if container_used (s_container s1) then Some (container_spec ca1) else None) in *.
  set (d1 := mkdecl true o (Some fs1)).
  assert (K1 : forall vars, struct_compiles d1 vars = true /\ ~ position_taken fs1).
  { intros vars. apply C65_compiles; [reflexivity|now rewrite ET1| | |now left].
    - intros g Hg. apply own_not_reserved, ON1. rewrite <- ET1. now apply in_map.
    - intros _ g Hg. apply (no_publishers _ _ _ _ _ _ _ (sh_fields _ _ _ _ _ _ _ H1) NP (n_spec g, n_type g)). rewrite <- EN1.
      unfold nameless. apply in_map_iff. exists g. auto. }
  split; [exact K0|]. split; [intros vars; apply (K1 vars)|]. split; [exact HP|].
  intros d p vs q HD. destruct (X d p vs q HD) as [HL Y]. split; [exact HL|].
  rewrite (C65_struct d1 fs1 _ no_fattr d q eq_refl (proj1 (K1 _)) (proj2 (K1 []))).
  change (d_named d1) with true. rewrite EN1. change (GenDecode.container_of d1) with (match o with Some c => c | None => no_cspec end). rewrite EC1.
  apply Y. apply modifiers_convey; [now right|reflexivity].
Qed.

(** A struct that asks for variables cannot hand any on: it does not compile if one of its
    fields has [variable_name]. *)
Theorem C84_relay_refuted : forall A others key s gets c l f x, source_hands A others key s gets c l ->
  gets <> [] -> In f (s_fields s) -> publishes f x ->
  exists d, handing_decoder A others key s = Some d /\ forall vars, struct_compiles d vars = false.
Proof.
  intros A others key s gets c l f x H NE Hf P. destruct (handing_derived _ _ _ _ _ _ _ H) as (ca & fs & E & _ & EN & _).
  eexists. split; [exact E|]. intros vars.
  assert (U : container_used (s_container s) = true).
  { destruct H as [(ls & L & _ & _ & _ & _ & names & DN & _ & EG & _) _]. apply first_found in L. unfold container_used.
    destruct (find _ _) as [a|].
    - destruct (t_entries a); [|reflexivity]. subst ls. apply decided_nil in DN. subst names. now elim NE.
    - subst ls. apply decided_nil in DN. subst names. now elim NE. }
  rewrite U.
  assert (X : exists ft, In ft l /\ f_vars (fst ft) <> []).
  { destruct H as [_ HF]. clear - HF Hf P. induction HF as [before|before g r l gs names more L D S V W HF IH]; [easy|].
    destruct Hf as [->|Hf].
    - eexists. split; [now left|]. cbn [fst f_vars set_vars]. apply (publishes_names f l names x L V W) in P.
      destruct (match names with Some xs => xs | None => [] end); [destruct P|discriminate].
    - destruct (IH Hf) as (ft & I & N). exists ft. split; [now right|exact N]. }
  destruct X as (ft & I & N). rewrite <- EN in I. unfold nameless in I. apply in_map_iff in I as (g & <- & I). cbn [fst] in N.
  apply (C65_variable_refuted true (container_spec ca) fs vars g I N).
Qed.

(** ** Examples *)
(** A number for each text. *)
Fixpoint code_of (x : bytes) : N := match x with [] => 0 | c :: r => 257 * code_of r + Byte.to_N c + 1 end.
Definition key_of (x : bytes) : nat := N.to_nat (code_of x).
Lemma key_of_injective x y : key_of x = key_of y -> x = y.
Proof.
  intros H. apply N2Nat.inj in H. revert y H. induction x as [|c x IH]; intros [|d y] H; cbn [code_of] in H; [reflexivity|lia|lia|].
  assert (B : forall b, Byte.to_N b < 256) by (intros b; destruct b; reflexivity).
  pose proof (B c). pose proof (B d). assert (E : code_of x = code_of y) by lia. rewrite (IH _ E). f_equal.
  assert (E' : Byte.to_N c = Byte.to_N d) by lia. apply (f_equal Byte.of_N) in E'. rewrite !Byte.of_to_N in E'. congruence.
Qed.
(** [struct Outer { a: u8, #[jbytes(variable_name = "a,n")] n: u8, inner: Inner }] and
    [#[jbytes(get_variable_name = "n,a,z")] struct Inner { #[jbytes(length = "n - a + z")] body: Vec<u8> }] *)
Definition inner (m : meaning) : source :=
  mksource [jbytes_line [Property (txt "get_variable_name") (quoted (txt "n,a,z"))]]
    [mksource_field (txt "body") [jbytes_line [Property (txt "length") (quoted (txt "n - a + z"))]] m TBytes].
Definition type_of (d : option decl) : ty :=
  match d with
  | Some d => TStruct true (GenDecode.container_of d) (nameless (match d_fields d with Some fs => fs | None => [] end))
  | None => TBytes
  end.
Definition outer (names : string) (m : meaning) : source :=
  mksource [] [mksource_field (txt "a") [] m (TInt U8);
               mksource_field (txt "n") [jbytes_line [Property (txt "variable_name") (quoted (txt names))]] m (TInt U8);
               mksource_field (txt "inner") [] m (type_of (handing_decoder integers nothing_else key_of (inner m)))].
Definition outer_decoder names m : decl :=
  match handing_decoder integers nothing_else key_of (outer names m) with Some d => d | None => mkdecl true None None end.
Example C84_case : forall m,
  run_struct dec (outer_decoder "a,n" m) no_cattr (hex [1; 3; 7; 8; 9]) 0
    = Ok (VList [vi 1; vi 3; VList [VBytes (hex [7; 8])]]) 4
  /\ hands (firstn 2 (s_fields (outer "a,n" m))) [vi 1; vi 3] (txt "n") 3
  /\ hands (firstn 2 (s_fields (outer "a,n" m))) [vi 1; vi 3] (txt "z") 0.
Proof.
  intros m.
  assert (L : forall names, first_line ["jbytes"%string] [jbytes_line [Property (txt "variable_name") (quoted (txt names))]]
                              [Property (txt "variable_name") (quoted (txt names))]).
  { intros names. left. exists [], (jbytes_line [Property (txt "variable_name") (quoted (txt names))]), []. split; [reflexivity|].
    split; [now left|]. split; [reflexivity|easy]. }
  assert (D : decided (about_names "variable_name") [Property (txt "variable_name") (quoted (txt "a,n"))] (Some [txt "a"; txt "n"])).
  { apply (decided_by _ []).
    - exists (txt "variable_name"), (quoted (txt "a,n")). split; [reflexivity|]. split; [now left|]. split; [discriminate|].
      split; [repeat constructor; try (left; vm_compute; split; discriminate); discriminate|].
      split; [reflexivity|]. vm_compute. intuition discriminate.
    - easy. }
  split; [vm_compute; reflexivity|]. split.
  - change 3 with (unsigned Usize 3). eapply (hands_value _ _ _ 1 1); try reflexivity.
    exists [Property (txt "variable_name") (quoted (txt "a,n"))], [txt "a"; txt "n"]. split; [apply L|]. split; [exact D|]. right. now left.
  - apply hands_nothing. intros f [<-|[<-|[]]] (l & names & F & DD & I).
    + destruct F as [(b & a & q & E & _)|[-> _]]; [destruct b; discriminate|]. apply decided_nil in DD. discriminate.
    + pose proof (first_line_unique _ _ _ _ F (L "a,n"%string)) as ->.
      assert (P : publishes (mksource_field (txt "n") [jbytes_line [Property (txt "variable_name") (quoted (txt "a,n"))]] m (TInt U8)) (txt "z"))
        by (eexists _, names; split; [apply L|auto]).
      apply (publishes_names _ _ (Some [txt "a"; txt "n"]) (txt "z") F D) in P.
      * destruct P as [P|[P|[]]]; discriminate.
      * intros k lit [E|[]] _. injection E as <- <-. exists [txt "a"; txt "n"]. inversion D as [|l' e r xs AB _ E]. destruct l' as [|? l']; [|destruct l'; discriminate].
        injection E as -> ->. exact AB.
Qed.
Lemma more_hand A others key gets before f r l gs names spec t more :
  set_vars (map (fun x => (key x, published_number A others key gets (before ++ [s_name f]) x)) (match names with Some xs => xs | None => [] end))
           (fold_left (fun spec g => g spec) gs plain) = spec -> s_type f = t ->
  first_line ["jbytes"%string] (s_lines f) l -> ~ (exists a, In a (s_lines f) /\ called (t_name a) ["default"%string]) ->
  Forall2 (says (handed_meaning A others key gets before f)) l gs ->
  decided (about_names "variable_name") l names ->
  (forall k lit, In (Property k lit) l -> called k ["variable_name"%string] -> exists names, about_names "variable_name" (Property k lit) names) ->
  fields_hand A others key gets (before ++ [s_name f]) r more -> fields_hand A others key gets before (f :: r) ((spec, t) :: more).
Proof. intros <- <-. apply hand_more. Qed.
Definition an : list bytes := [txt "a"; txt "n"].
Definition naz : list bytes := [txt "n"; txt "a"; txt "z"].
Definition inner_fields : list (fspec * ty) :=
  [(at_length (handed_number integers nothing_else key_of naz var_code [] (txt "n - a + z")) plain, TBytes)].
Definition outer_fields : list (fspec * ty) :=
  [(plain, TInt U8);
   (with_variables (map (fun x => (key_of x, published_number integers nothing_else key_of [] an x)) an) plain, TInt U8)].
Lemma naz_names : Forall a_name naz.
Proof. repeat constructor; try (left; vm_compute; split; discriminate); discriminate. Qed.
Lemma listed_entry (w : string) names : names <> [] -> Forall a_name names -> string_literal (quoted (joined ","%byte names)) (joined ","%byte names) ->
  about_names w (Property (txt w) (quoted (joined ","%byte names))) names.
Proof. intros N F S. exists (txt w), (quoted (joined ","%byte names)). repeat split; auto; [now left|apply S|apply S]. Qed.
(** The two structs meet the conditions of the theorems. *)
Example C84_inner_case m : source_hands integers nothing_else key_of (inner m) naz no_cspec inner_fields.
Proof.
  assert (AN : about_names "get_variable_name" (Property (txt "get_variable_name") (quoted (txt "n,a,z"))) naz).
  { apply (listed_entry "get_variable_name" naz); [discriminate|exact naz_names|]. split; [reflexivity|vm_compute; intuition discriminate]. }
  constructor.
  - eexists. split; [apply this_line; now left|]. split; [|split; [|split; [|split; [|exists (Some naz); split; [|split; [|split; [reflexivity|]]]]]]].
    + constructor; [|constructor]. right. right. right. left. now left.
    + constructor; [|constructor]. vm_compute. intuition discriminate.
    + apply undecided. intros e a [<-|[]] H. inversion H as [? ? K|? ? K]; subst; vm_compute in K; intuition discriminate.
    + apply undecided. intros e a [<-|[]] H. inversion H as [|? ? ? K]; subst; vm_compute in K; intuition discriminate.
    + apply (decided_by _ []); [exact AN|easy].
    + intros k lit [[= <- <-]|[]] _. exists naz. exact AN.
    + repeat constructor; intros I; vm_compute in I; intuition discriminate.
  - unfold inner, inner_fields. cbn [s_fields].
    eapply (more_hand _ _ _ _ _ _ _ _ [at_length (handed_number integers nothing_else key_of naz var_code [] (txt "n - a + z"))] None);
      [reflexivity|reflexivity|apply this_line; now left| | | | |constructor].
    + intros (a & [<-|[]] & H). vm_compute in H. intuition discriminate.
    + constructor; [|constructor]. apply says_length; [left; reflexivity|]. apply denotes_expression with (s := txt "n - a + z").
      * split; [reflexivity|vm_compute; intuition discriminate].
      * split; [vm_compute; intuition discriminate|discriminate].
    + apply undecided. intros e a [<-|[]] (k & lit & [= <- _] & K & _). vm_compute in K. intuition discriminate.
    + intros k lit [[= <- <-]|[]] K. vm_compute in K. intuition discriminate.
Qed.
Example C84_outer_case m : source_hands integers nothing_else key_of (outer "a,n" m) [] no_cspec (outer_fields ++ [(plain, TStruct true no_cspec inner_fields)]).
Proof.
  assert (AN : about_names "variable_name" (Property (txt "variable_name") (quoted (txt "a,n"))) an).
  { apply (listed_entry "variable_name" an); [discriminate| |].
    - repeat constructor; try (left; vm_compute; split; discriminate); discriminate.
    - split; [reflexivity|vm_compute; intuition discriminate]. }
  assert (T : type_of (handing_decoder integers nothing_else key_of (inner m)) = TStruct true no_cspec inner_fields).
  { destruct (C84_decoder _ _ _ _ _ _ _ (C84_inner_case m)) as (d & fs & -> & F & _ & C & N & _). cbn [type_of]. now rewrite F, C, N. }
  assert (NO : ~ (exists a : attribute, In a [] /\ called (t_name a) ["default"%string])) by (intros (a & [] & _)).
  constructor.
  - exists []. split; [right; easy|]. repeat split; try (constructor; fail); try (apply undecided; easy).
    exists None. repeat split; [apply undecided; easy|easy|constructor].
  - unfold outer, outer_fields. cbn [s_fields app].
    apply (more_hand _ _ _ _ _ _ _ [] [] None); [reflexivity|reflexivity|now right|exact NO|constructor|now apply undecided|easy|].
    set (f := mksource_field (txt "n") _ _ _).
    set (M := handed_meaning integers nothing_else key_of [] [txt "a"] f).
    eapply (more_hand _ _ _ _ _ _ _ _ [with_variables (map (fun x => (m_name M x, m_number M x)) an)] (Some an));
      [reflexivity|reflexivity|apply this_line; now left| | | | |].
    { intros (a & [<-|[]] & H). vm_compute in H. intuition discriminate. }
    { constructor; [|constructor]. apply says_variables; [now left|discriminate| |].
      - repeat constructor; vm_compute; intuition discriminate.
      - split; [reflexivity|vm_compute; intuition discriminate]. }
    { apply (decided_by _ []); [exact AN|easy]. }
    { intros k lit [[= <- <-]|[]] _. exists an. exact AN. }
    apply (more_hand _ _ _ _ _ _ _ [] [] None); [reflexivity|exact T|now right|exact NO|constructor|now apply undecided|easy|constructor].
Qed.
(** A space after the comma becomes part of the name under which the value is stored, not of
    the variable whose value it is: all compiles, and the nested struct finds 0. *)
Theorem C84_space_refuted : forall m,
  struct_compiles (outer_decoder "a, n" m) [] = true /\ struct_compiles (outer_decoder "a,n" m) [] = true /\
  run_struct dec (outer_decoder "n,a" m) no_cattr (hex [0; 3; 7; 8; 9]) 0 = Ok (VList [vi 0; vi 3; VList [VBytes (hex [7; 8; 9])]]) 5 /\
  run_struct dec (outer_decoder "a, n" m) no_cattr (hex [0; 3; 7; 8; 9]) 0 = Ok (VList [vi 0; vi 3; VList [VBytes []]]) 2.
Proof. intros m. repeat split; vm_compute; reflexivity. Qed.

(** So it does on the other side: the variable is called [a], but what is looked up is what
    stands under [" a"]. *)
Definition asking (names : string) (m : meaning) : source :=
  mksource [jbytes_line [Property (txt "get_variable_name") (quoted (txt names))]]
    [mksource_field (txt "body") [jbytes_line [Property (txt "length") (quoted (txt "n - a"))]] m TBytes].
Theorem C84_space_asked_refuted : forall m, let found := container_with no_cspec [(key_of (txt "a"), 1); (key_of (txt "n"), 3)] in
  let run names := match handing_decoder integers nothing_else key_of (asking names m) with
                   | Some d => if struct_compiles d (k_vars found) then Some (run_struct dec d found (hex [7; 8; 9]) 0) else None
                   | None => None
                   end in
  run "n,a"%string = Some (Ok (VList [VBytes (hex [7; 8])]) 2) /\ run "n, a"%string = Some (Ok (VList [VBytes (hex [7; 8; 9])]) 3).
Proof. intros m found run. split; vm_compute; reflexivity. Qed.

Print Assumptions C84_variables.
Print Assumptions C84_numbers.
Print Assumptions C84_decoder.
Print Assumptions C84_nested.
Print Assumptions C84_relay_refuted.
Print Assumptions C84_space_refuted.
Print Assumptions C84_space_asked_refuted.

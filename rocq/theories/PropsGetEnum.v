(** C61: the functions derived by [#[derive(Jget)]] on an enum; examples and findings
    for C60 and C61. *)
From Coq Require Import Ascii String Lia.
From Verif Require Import Base BaseLemmas Ints Text Schema AttrParse JDefault JGet GetSpec GetLemmas PropsGet.
Close Scope string_scope.

Definition option_only : gattrs := mkgattrs false [] true [] false false.
Lemma only_attributes al : only_option al -> get_attributes al = Some option_only.
Proof. intros H. rewrite (attributes_jget _ _ H). reflexivity. Qed.
Definition field_arm (i : nat) (f : gfield) : arm :=
  mkarm (gf_name f) (g_ret (plain_getter f option_only true)) i true (OfNamed (plain_getter f option_only true)).
Lemma record_arms v i : record_variant v ->
  exists al, variant_arms i v = Some al /\
    forall a, In a al <-> exists f, In f (fields_of v) /\ only_option (gf_attrs f) /\ a = field_arm i f.
Proof.
  intros (A & _ & F). unfold variant_arms. rewrite (attributes_none _ A).
  assert (G : exists gs, body_getters (gv_fields v) = Some gs /\
    forall g n, In (g, n) gs <-> exists f, In f (fields_of v) /\ only_option (gf_attrs f) /\ g = plain_getter f option_only true /\ n = gf_name f).
  { unfold fields_of in *. destruct (gv_fields v) as [|fs|k]; cbn [body_getters].
    - exists []. split; [reflexivity|]. intros g n. split; [intros []|]. intros (f & [] & _).
    - induction F as [|f fs (N & T & H) _ IH].
      + exists []. split; [reflexivity|]. intros g n. split; [intros []|]. intros (f & [] & _).
      + destruct IH as (gs & E & IH). cbn [map all_some]. unfold field_getters at 1.
        destruct (all_some _) as [r|]; [|discriminate]. cbn [option_map] in E. injection E as <-.
        destruct H as [H|H].
        * rewrite (attributes_none _ H). cbn [option_map map app a_get a_get_option a_get_string a_get_string_option no_gattrs].
          eexists. split; [reflexivity|]. intros g n. cbn [concat app]. rewrite IH. split.
          -- intros (f' & I & R). exists f'. split; [right; exact I|exact R].
          -- intros (f' & [<-|I] & O & R); [|exists f'; auto]. apply only_attributes in O. rewrite (attributes_none _ H) in O. discriminate.
        * rewrite (only_attributes _ H). cbn [option_map map app a_get a_get_option a_get_string a_get_string_option option_only].
          eexists. split; [reflexivity|]. intros g n. cbn [concat app In]. rewrite IH. split.
          -- intros [E|(f' & I & R)].
             ++ injection E as <- <-. exists f. split; [left; reflexivity|]. split; [exact H|]. split; reflexivity.
             ++ exists f'. split; [right; exact I|exact R].
          -- intros (f' & [<-|I] & O & R & R'); [left; rewrite R, R'; reflexivity|right; exists f'; auto].
    - exists []. split; [reflexivity|]. intros g n. split; [intros []|]. intros (f & [] & _). }
  destruct G as (gs & -> & G). cbn [a_get_string a_get_string_option no_gattrs map app]. eexists. split; [reflexivity|].
  rewrite Forall_forall in F. intros a. rewrite in_map_iff. split.
  - intros ((g, n) & <- & I). apply G in I. destruct I as (f & I & O & -> & ->). exists f. split; [exact I|]. split; [exact O|].
    cbn [fst]. unfold field_arm. f_equal. apply function_name, simple_called, F, I.
  - intros (f & I & O & ->). exists (plain_getter f option_only true, gf_name f). split; [|apply G; exists f; auto].
    cbn [fst]. unfold field_arm. f_equal. apply function_name, simple_called, F, I.
Qed.
Lemma enum_all vs : (forall v, In v vs -> forall i, exists al, variant_arms i v = Some al) ->
  forall k, exists l, enum_arms k vs = Some l.
Proof.
  intros H. induction vs as [|v vs IH]; intros k; [exists []; reflexivity|]. cbn [enum_arms].
  destruct (H v (or_introl eq_refl) k) as (al & ->). destruct (IH (fun w I => H w (or_intror I)) (S k)) as (r & ->).
  eexists. reflexivity.
Qed.
Lemma hd_filter_some {A} (p : A -> bool) l a : hd_error (filter p l) = Some a -> In a l /\ p a = true.
Proof.
  intros H. apply filter_In. destruct (filter p l) as [|b r]; [discriminate|]. injection H as ->. left. reflexivity.
Qed.
Lemma hd_filter_none {A} (p : A -> bool) l : hd_error (filter p l) = None -> forall a, In a l -> p a = false.
Proof.
  intros H a I. destruct (p a) eqn:P; [|reflexivity]. assert (J : In a (filter p l)) by (apply filter_In; auto).
  destruct (filter p l); [destruct J|discriminate].
Qed.

(** *** Variants with named fields: the value of the field of that name if the variant
    at hand has one marked [get_option], otherwise [None]. *)
Theorem C61_record into attrs vs n i v env : standard_conversions into -> no_jget attrs -> Forall record_variant vs ->
  nth_error vs i = Some v -> (exists w ts, In w vs /\ offers w n ts) ->
  (forall w w' ts ts', In w vs -> In w' vs -> offers w n ts -> offers w' n ts' -> ts = ts') ->
  (forall ts x, offers v n ts -> env n = Some (spelled ts, x) -> (forall u, spelled ts <> txt "Option<" ++ u) ->
     enum_call into attrs vs n i env = Some (VOpt (Some x))) /\
  (forall ts u o, offers v n ts -> env n = Some (spelled ts, VOpt o) -> spelled ts = txt "Option<" ++ u ++ txt ">" ->
     enum_call into attrs vs n i env = Some (VOpt (option_map (fun x => VOpt (Some x)) o))) /\
  ((forall ts, ~ offers v n ts) -> enum_call into attrs vs n i env = Some (VOpt None)).
Proof.
  intros (R & R') NA F V (w & ts0 & Iw & Ow) Same.
  assert (FF := F). rewrite Forall_forall in F.
  destruct (enum_all vs (fun v I i => let '(ex_intro _ al (conj E _)) := record_arms v i (F v I) in ex_intro _ al E) 0%nat) as (l & E).
  pose proof (enum_arms_spec vs 0 l E) as L. cbn [Nat.add] in L.
  assert (LA : forall a, In a l -> exists j u f, nth_error vs j = Some u /\ In f (fields_of u) /\ only_option (gf_attrs f) /\ a = field_arm j f).
  { intros a I. apply L in I. destruct I as (j & u & al & N & A & I). destruct (record_arms u j (F u (nth_error_In _ _ N))) as (al' & A' & G).
    rewrite A in A'. injection A' as <-. apply G in I. destruct I as (f & I & O & ->). exists j, u, f. auto. }
  assert (EX : exists a, In a l /\ arm_name a = n).
  { destruct Ow as (f & If & Of & Nf & Tf). destruct (In_nth_error _ _ Iw) as (j & Nj).
    exists (field_arm j f). split; [|exact Nf]. apply L.
    destruct (record_arms w j (F w Iw)) as (al & A & G). exists j, w, al. split; [exact Nj|]. split; [exact A|].
    apply G. exists f. auto. }
  destruct (enum_value into attrs vs n i v env l NA E V EX) as (al & z & A & Iz & Nz & ->).
  destruct (LA z Iz) as (jz & uz & fz & Njz & Ifz & Ofz & ->). cbn [field_arm arm_ret arm_else arm_name] in *.
  assert (Iv := nth_error_In _ _ V).
  destruct (record_arms v i (F v Iv)) as (al' & A' & G). rewrite A in A'. injection A' as <-.
  assert (KEY : forall ts, offers v n ts -> exists f, In f (fields_of v) /\ gf_name f = n /\ gf_type f = ts /\
     hd_error (filter (fun a => bytes_eqb (arm_name a) n) al) = Some (field_arm i f)).
  { intros ts (f & If & Of & Nf & Tf). exists f. split; [exact If|]. split; [exact Nf|]. split; [exact Tf|].
    destruct (hd_error _) as [a|] eqn:H.
    - apply hd_filter_some in H. destruct H as (H1 & H2). apply G in H1. destruct H1 as (f' & If' & Of' & ->).
      apply bytes_eqb_eq in H2. cbn in H2. f_equal. f_equal.
      destruct (F v Iv) as (_ & ND & _). clear - If If' H2 Nf ND. subst n.
      induction (fields_of v) as [|x fs IH]; [destruct If|]. cbn in ND. inversion_clear ND as [|? ? Hx Hr].
      destruct If as [->|If], If' as [->|If']; [reflexivity| | |apply IH; assumption]; elim Hx; apply in_map_iff; eexists;
        (split; [|eassumption]); congruence.
    - exfalso. assert (J : In (field_arm i f) al) by (apply G; exists f; auto).
      pose proof (hd_filter_none _ _ H (field_arm i f) J) as X. cbn [field_arm arm_name] in X.
      rewrite Nf, bytes_eqb_refl in X. discriminate X. }
  assert (RET : forall f, In f (fields_of v) -> only_option (gf_attrs f) -> gf_name f = n -> gf_type fz = gf_type f).
  { intros f If Of Nf. apply (Same uz v); [exact (nth_error_In _ _ Njz)|exact Iv| |].
    - exists fz. auto.
    - exists f. auto. }
  assert (RUN : forall f, In f (fields_of v) -> gf_name f = n -> gf_type fz = gf_type f ->
    forall x, env n = Some (spelled (gf_type f), x) ->
    run_getter into (g_ret (plain_getter fz option_only true)) env (plain_getter f option_only true) =
    (if begins "Option<" (spelled (gf_type f)) then
       match x with
       | VOpt None => Some (VOpt None)
       | VOpt (Some y) => Some (VOpt (Some (into (inside (spelled (gf_type f))) (spelled (gf_type f)) y)))
       | _ => None
       end
     else Some (VOpt (Some x)))).
  { intros f If Nf Tf x Ex.
    destruct (F v Iv) as (_ & _ & FP). rewrite Forall_forall in FP. destruct (FP f If) as (SN & TK & _).
    assert (Q : g_ret (plain_getter fz option_only true) = g_ret (plain_getter f option_only true)).
    { unfold plain_getter, code. cbn [g_ret]. rewrite Tf. reflexivity. }
    rewrite Q. unfold run_getter. pose proof (plain_step f option_only true TK) as S. rewrite (plain_ret f option_only true TK).
    unfold plain_getter, code in S |- *. cbn [g_path g_some g_step g_ret option_only a_option orb] in *.
    rewrite (field_path _ (proj1 SN)), Nf, Ex, no_spaces_type, S, wrapped.
    destruct (begins "Option<" (spelled (gf_type f))) eqn:B.
    - destruct x; try reflexivity. destruct o; reflexivity.
    - cbn [option_map]. rewrite R. reflexivity. }
  split; [|split].
  - intros ts x O Ex NO. destruct (KEY ts O) as (f & If & Nf & Tf & ->). cbn [field_arm arm_body_of].
    destruct O as (f' & If' & Of' & Nf' & Tf').
    assert (TZ : gf_type fz = gf_type f) by (rewrite Tf, <- Tf'; apply RET; assumption).
    rewrite <- Tf in Ex, NO. rewrite (RUN f If Nf TZ x Ex).
    destruct (begins "Option<" (spelled (gf_type f))) eqn:B; [|reflexivity].
    apply starts_iff in B. destruct B as (u & B). elim (NO u B).
  - intros ts u o O Ex EQ. destruct (KEY ts O) as (f & If & Nf & Tf & ->). cbn [field_arm arm_body_of].
    destruct O as (f' & If' & Of' & Nf' & Tf').
    assert (TZ : gf_type fz = gf_type f) by (rewrite Tf, <- Tf'; apply RET; assumption).
    rewrite <- Tf in Ex, EQ. rewrite (RUN f If Nf TZ _ Ex), EQ. unfold begins. rewrite starts_app, wrapped.
    destruct o as [y|]; [rewrite R'|]; reflexivity.
  - intros NO. destruct (hd_error _) as [a|] eqn:H; [|reflexivity]. exfalso.
    apply hd_filter_some in H. destruct H as (H1 & H2). apply G in H1. destruct H1 as (f' & If' & Of' & ->).
    apply bytes_eqb_eq in H2. cbn in H2. apply (NO (gf_type f')). exists f'. auto.
Qed.

(** ** Variants that forward to the value inside *)
Lemma forward_arms o v l i : forwards o v l -> variant_arms i v = Some (map (variant_arm i o) l).
Proof.
  intros (T & H). unfold variant_arms. rewrite T. cbn [body_getters]. destruct H as [(-> & H)|(L & H)].
  - rewrite (attributes_none _ H). destruct o; reflexivity.
  - rewrite (attributes_jget _ _ H). destruct o; cbn [get_entries].
    + replace (bytes_eqb (txt "get_option") (txt "name")) with false by reflexivity.
      replace (bytes_eqb (txt "get_option") (txt "get")) with false by reflexivity. rewrite bytes_eqb_refl.
      cbn [get_entries no_gattrs a_get_string a_get_string_option app map]. rewrite literal_list by exact L.
      rewrite app_nil_r. reflexivity.
    + replace (bytes_eqb (txt "get") (txt "name")) with false by reflexivity. rewrite bytes_eqb_refl.
      cbn [get_entries no_gattrs a_get_string a_get_string_option app map]. rewrite literal_list by exact L.
      rewrite app_nil_r. reflexivity.
Qed.
Lemma forward_value o into attrs vs ls m i v l env : no_jget attrs -> Forall2 (forwards o) vs ls ->
  nth_error vs i = Some v -> nth_error ls i = Some l ->
  (exists l' p t, In l' ls /\ In (p, t) l' /\ called p m) ->
  enum_call into attrs vs m i env =
    match hd_error (filter (fun r => bytes_eqb (get_function_name (fst r)) m) l) with
    | Some r => option_map (fun tv => if o then VOpt (Some (snd tv)) else snd tv) (env (fst r))
    | None => if o then Some (VOpt None) else None
    end.
Proof.
  intros NA F V Ll (l' & p & t & Il & Ip & Cp).
  assert (AR : forall i v, nth_error vs i = Some v -> exists l, nth_error ls i = Some l /\ forwards o v l).
  { clear - F. induction F as [|v l vs ls H _ IH]; intros i u N; [destruct i; discriminate|]. destruct i as [|i].
    - injection N as <-. exists l. auto.
    - apply IH, N. }
  assert (AL : forall l, In l ls -> exists i v, nth_error vs i = Some v /\ forwards o v l).
  { clear - F. induction F as [|v l vs ls H _ IH]; intros l0 I; [destruct I|]. destruct I as [<-|I].
    - exists 0%nat, v. auto.
    - destruct (IH _ I) as (i & u & N & G). exists (S i), u. auto. }
  destruct (enum_all vs) with (k := 0%nat) as (all & E).
  { intros u I j. destruct (In_nth_error _ _ I) as (k & N). destruct (AR _ _ N) as (lu & _ & H). rewrite (forward_arms _ _ _ j H).
    eexists. reflexivity. }
  pose proof (enum_arms_spec vs 0 all E) as L. cbn [Nat.add] in L.
  assert (EL : forall a, In a all -> arm_else a = o).
  { intros a I. apply L in I. destruct I as (j & u & al & N & A & I). destruct (AR _ _ N) as (lu & _ & H).
    rewrite (forward_arms _ _ _ j H) in A. injection A as <-. apply in_map_iff in I. destruct I as (r & <- & _). reflexivity. }
  assert (EX : exists a, In a all /\ arm_name a = m).
  { destruct (AL _ Il) as (j & u & N & H). exists (variant_arm j o (p, t)). split.
    - apply L. exists j, u, (map (variant_arm j o) l'). split; [exact N|]. split; [apply forward_arms, H|]. apply in_map, Ip.
    - apply function_name, Cp. }
  destruct (enum_value into attrs vs m i v env all NA E V EX) as (al & z & A & Iz & Nz & ->).
  destruct (AR _ _ V) as (l2 & L2 & H2). rewrite Ll in L2. injection L2 as <-.
  rewrite (forward_arms _ _ _ i H2) in A. injection A as <-. rewrite (EL z Iz).
  assert (X : forall l, filter (fun a => bytes_eqb (arm_name a) m) (map (variant_arm i o) l) =
             map (variant_arm i o) (filter (fun r => bytes_eqb (get_function_name (fst r)) m) l)).
  { clear. induction l as [|r l IH]; [reflexivity|]. cbn [map filter]. unfold variant_arm at 1. cbn [arm_name].
    destruct (bytes_eqb (get_function_name (fst r)) m); cbn [map]; rewrite IH; reflexivity. }
  rewrite X. destruct (filter _ l); reflexivity.
Qed.
Lemma first_called names l m : forwards_once names l -> forall p t, In (p, t) l -> called p m ->
  exists t', hd_error (filter (fun r => bytes_eqb (get_function_name (fst r)) m) l) = Some (p, t').
Proof.
  intros (F & ND) p t I C. revert names F ND. induction l as [|(q, s) l IH]; intros names F ND; [destruct I|].
  cbn [map fst] in F. inversion F as [|? k ? ks Hq Hr]; subst. inversion_clear ND as [|? ? Hk Hks].
  cbn [filter fst]. rewrite (function_name _ _ Hq). destruct (bytes_eqb k m) eqn:K.
  - apply bytes_eqb_eq in K. subst k. destruct I as [I|I]; [injection I as -> ->; exists t; reflexivity|].
    exfalso. apply Hk. clear - Hr I C. revert ks Hr. induction l as [|(q, s) l IH]; intros ks Hr; [destruct I|].
    cbn [map fst] in Hr. inversion Hr as [|? k ? ks' Hq Hr']; subst. destruct I as [I|I].
    + injection I as -> ->. left. rewrite <- (function_name _ _ Hq). apply function_name, C.
    + right. apply IH; assumption.
  - destruct I as [I|I].
    + injection I as -> ->. rewrite <- (function_name _ _ Hq), (function_name _ _ C), bytes_eqb_refl in K. discriminate.
    + apply (IH I ks); assumption.
Qed.
Lemma none_called (l : list (bytes * bytes)) m : Forall (fun r => exists m', called (fst r) m') l -> (forall p t, In (p, t) l -> ~ called p m) ->
  filter (fun r => bytes_eqb (get_function_name (fst r)) m) l = [].
Proof.
  intros F H. induction F as [|(p, t) l (m' & C) _ IH]; [reflexivity|]. cbn [filter fst] in *.
  rewrite (function_name _ _ C). destruct (bytes_eqb m' m) eqn:E.
  - apply bytes_eqb_eq in E. subst m'. elim (H p t (or_introl eq_refl) C).
  - apply IH. intros q s I. apply (H q s). right. exact I.
Qed.

(** *** [get_option = "p: t"] on the variants: [Some] of what [p] is of the value inside,
    for the variants that list it, otherwise [None]. *)
Theorem C61_forward into attrs vs ls m i v l env : no_jget attrs -> Forall2 (forwards true) vs ls ->
  Forall (fun l => exists names, forwards_once names l) ls ->
  nth_error vs i = Some v -> nth_error ls i = Some l ->
  (exists l' p t, In l' ls /\ In (p, t) l' /\ called p m) ->
  (forall p t tv, In (p, t) l -> called p m -> env p = Some tv ->
     enum_call into attrs vs m i env = Some (VOpt (Some (snd tv)))) /\
  ((forall p t, In (p, t) l -> ~ called p m) -> enum_call into attrs vs m i env = Some (VOpt None)).
Proof.
  intros NA F N V L EX. rewrite Forall_forall in N. destruct (N l (nth_error_In _ _ L)) as (names & ON).
  rewrite (forward_value true into attrs vs ls m i v l env NA F V L EX). split.
  - intros p t tv I C E. destruct (first_called names l m ON p t I C) as (t' & ->). cbn [fst]. rewrite E. reflexivity.
  - intros H. rewrite none_called; [reflexivity| |exact H]. clear - ON. destruct ON as (F & _).
    revert names F. induction l as [|(p, t) l IH]; intros names F; constructor; cbn [map fst] in F; inversion F; subst; eauto.
Qed.
(** *** [get = "p: t"] on every variant: what [p] is of the value inside. A variant
    that does not list it leaves the function without a value, so the derived code is
    refused by the compiler. *)
Theorem C61_forward_all into attrs vs ls m i v l env : no_jget attrs -> Forall2 (forwards false) vs ls ->
  Forall (fun l => exists names, forwards_once names l) ls ->
  nth_error vs i = Some v -> nth_error ls i = Some l ->
  (exists l' p t, In l' ls /\ In (p, t) l' /\ called p m) ->
  (forall p t tv, In (p, t) l -> called p m -> env p = Some tv ->
     enum_call into attrs vs m i env = Some (snd tv)) /\
  ((forall p t, In (p, t) l -> ~ called p m) -> enum_call into attrs vs m i env = None).
Proof.
  intros NA F N V L EX. rewrite Forall_forall in N. destruct (N l (nth_error_In _ _ L)) as (names & ON).
  rewrite (forward_value false into attrs vs ls m i v l env NA F V L EX). split.
  - intros p t tv I C E. destruct (first_called names l m ON p t I C) as (t' & ->). cbn [fst]. rewrite E. reflexivity.
  - intros H. rewrite none_called; [reflexivity| |exact H]. clear - ON. destruct ON as (F & _).
    revert names F. induction l as [|(p, t) l IH]; intros names F; constructor; cbn [map fst] in F; inversion F; subst; eauto.
Qed.

(** *** The return type of these functions: the [t] of [p: t], inside [Option] for
    [get_option] unless it already is one. *)
Theorem C61_forward_type o v l i : forwards o v l ->
  exists arms, variant_arms i v = Some arms /\ List.length arms = List.length l /\
  Forall (fun ra => (o = false -> arm_ret (snd ra) = snd (fst ra)) /\
    (o = true -> (forall u, snd (fst ra) <> txt "Option<" ++ u) -> arm_ret (snd ra) = txt "Option<" ++ snd (fst ra) ++ txt ">") /\
    (forall u, snd (fst ra) = txt "Option<" ++ u -> arm_ret (snd ra) = snd (fst ra))) (combine l arms).
Proof.
  intros H. exists (map (variant_arm i o) l). split; [apply forward_arms, H|]. split; [apply map_length|]. clear H.
  induction l as [|(p, t) l IH]; [constructor|]. cbn [map combine]. constructor; [|exact IH]. clear IH.
  cbn [fst snd variant_arm arm_ret]. unfold get_return_type. destruct (begins "Option<" t) eqn:B; cbn [negb andb orb].
  - split; [reflexivity|]. split; [|reflexivity]. intros _ N. apply starts_iff in B. destruct B as (u & B). elim (N u B).
  - split; [intros ->; reflexivity|]. split; [intros -> _; reflexivity|]. intros u ->. unfold begins in B. rewrite starts_app in B. discriminate.
Qed.

(** ** A struct and an enum that meet the hypotheses *)
(** [#[jget(get)]], [#[jget(get_option)]], [#[jget(get_option = "..")]] *)
Definition at_get : list attribute := [mkattribute (txt "jget") [Tag (txt "get")]].
Definition at_option : list attribute := [mkattribute (txt "serde") []; mkattribute (txt "jget") [Tag (txt "get_option")]].
Definition at_list (k : string) (l : list (string * string)) : list attribute :=
  [mkattribute (txt "jget") [Property (txt k) (literal_of (map (fun r => (txt (fst r), txt (snd r))) l))]].
(** [struct { #[jget(get)] id: u8, #[jget(get_option)] size: Option<u16>,
    #[jget(get_option = "data:Vec<u32>")] data: Vec<u16>,
    #[jget(get = "body.get_value():String")] body: Body }] *)
Definition sample : list gfield :=
  [mkgfield (txt "id") [txt "u8"] at_get;
   mkgfield (txt "size") [txt "Option"; txt "<"; txt "u16"; txt ">"] at_option;
   mkgfield (txt "data") [txt "Vec"; txt "<"; txt "u16"; txt ">"] (at_list "get_option" [("data", "Vec<u32>")]%string);
   mkgfield (txt "body") [txt "Body"] (at_list "get" [("body.get_value()", "String")]%string)].
Definition sample_attrs : list attribute := at_list "get_default" [("length", "u16"); ("kind", "u8")]%string.
Definition sample_env : places := fun e =>
  assoc e [("id", (txt "u8", VInt 7)); ("size", (txt "Option<u16>", VOpt (Some (VInt 300))));
           ("data", (txt "Vec<u16>", VList [VInt 1; VInt 65535])); ("body.get_value()", (txt "String", VBytes (txt "x")))]%string.
Definition sample_into : conversions := fun t u v =>
  if bytes_eqb u (txt "Option<" ++ t ++ txt ">") then VOpt (Some v) else v.
Example C60_case :
  standard_conversions sample_into /\ derives sample_attrs sample /\
  marked (gf_attrs (nth 0 sample (mkgfield [] [] []))) false /\ simple_name (txt "id") /\
  called (txt "body.get_value()") (txt "value") /\ subject (txt "body") (txt "body.get_value()") (txt "body.get_value()") /\
  asks (gf_attrs (nth 3 sample (mkgfield [] [] []))) false (txt "body.get_value()") (txt "String") /\
  map (fun n => struct_call sample_into sample_attrs (NamedFields sample) (txt n) sample_env)
    ["id"; "size"; "data"; "value"; "length"; "body"]%string =
  [Some (VInt 7); Some (VOpt (Some (VOpt (Some (VInt 300))))); Some (VOpt (Some (VList [VInt 1; VInt 65535])));
   Some (VBytes (txt "x")); Some (VOpt None); None].
Proof.
  assert (NE : forall t, t <> txt "Option<" ++ t ++ txt ">").
  { intros t H. apply (f_equal (@List.length _)) in H. rewrite !app_length in H. cbn in H. lia. }
  assert (SI : forall s, forallb (fun c => existsb (Byte.eqb c) (txt "abcdefghijklmnopqrstuvwxyzABCDEFGHIJKLMNOPQRSTUVWXYZ0123456789_")) (txt s) = true ->
      ~ In "g"%byte (txt s) -> simple_name (txt s)).
  { intros s H G. split; [apply word, H|]. apply (occurs_char _ _ "g"%byte); [left; reflexivity|exact G]. }
  split; [|split; [|split; [|split; [|split; [|split; [|split]]]]]].
  - split; intros t v; unfold sample_into.
    + destruct (bytes_eqb t (txt "Option<" ++ t ++ txt ">")) eqn:E; [apply bytes_eqb_eq in E; elim (NE t E)|reflexivity].
    + rewrite bytes_eqb_refl. reflexivity.
  - eexists. split; [vm_compute; reflexivity|]. cbn [map fst].
    repeat (apply NoDup_cons; [cbn [In]; intuition discriminate|]). apply NoDup_nil.
  - exists [Tag (txt "get")]. split; [exists [], []; split; [reflexivity|constructor]|]. split; [|left; reflexivity].
    intros [H|[]]. vm_compute in H. discriminate.
  - apply SI; [reflexivity|]. cbn. intuition discriminate.
  - exists (txt "value"). split; [apply simple_for, SI; [reflexivity|cbn; intuition discriminate]|]. right. exists (txt "body"). split; [cbn; intuition discriminate|].
    right. reflexivity.
  - left. split; [cbn; tauto|reflexivity].
  - eexists. exists [(txt "body.get_value()", txt "String")]. split; [exists [], []; split; [reflexivity|constructor]|].
    split; [intros [H|[]]; discriminate|]. split; [left; reflexivity|]. split; [|left; reflexivity].
    split; [discriminate|]. constructor; [|constructor]. cbn [fst snd].
    assert (W : forall s, forallb (fun c => negb (is_white c)) (txt s) = true -> ~ In ","%byte (txt s) -> neat (txt s)).
    { intros s H C. rewrite forallb_forall in H. split; [exact C|]. split; intros c r E B; apply white_iff in B.
      - specialize (H c). rewrite E in H. rewrite B in H. discriminate H. left. reflexivity.
      - specialize (H c). rewrite E in H. rewrite B in H. discriminate H. apply in_app_iff. right. left. reflexivity. }
    split; [apply W; [reflexivity|cbn; intuition discriminate]|]. split; [cbn; intuition discriminate|].
    apply W; [reflexivity|cbn; intuition discriminate].
  - reflexivity.
Qed.
(** [enum { Read { #[jget(get_option)] value: u8 }, Write { #[jget(get_option)] value: u8,
    #[jget(get_option)] data: u16 }, Stop }] *)
Definition sample_enum : list gvariant :=
  [mkgvariant [] (NamedFields [mkgfield (txt "value") [txt "u8"] at_option]);
   mkgvariant [] (NamedFields [mkgfield (txt "value") [txt "u8"] at_option; mkgfield (txt "data") [txt "u16"] at_option]);
   mkgvariant [] NoFields].
Definition sample_enum_env : places := fun e => assoc e [("value", (txt "u8", VInt 1)); ("data", (txt "u16", VInt 2))]%string.
Example C61_case : Forall record_variant sample_enum /\ offers (nth 1 sample_enum (mkgvariant [] NoFields)) (txt "data") [txt "u16"] /\
  map (fun ni => enum_call sample_into [] sample_enum (txt (fst ni)) (snd ni) sample_enum_env)
    [("value", 0%nat); ("value", 1%nat); ("value", 2%nat); ("data", 0%nat); ("data", 1%nat)]%string =
  [Some (VOpt (Some (VInt 1))); Some (VOpt (Some (VInt 1))); Some (VOpt None); Some (VOpt None); Some (VOpt (Some (VInt 2)))].
Proof.
  assert (OO : only_option at_option).
  { exists [mkattribute (txt "serde") []], []. split; [reflexivity|]. constructor; [|constructor]. discriminate. }
  assert (SI : forall s, forallb (fun c => existsb (Byte.eqb c) (txt "abcdefghijklmnopqrstuvwxyzABCDEFGHIJKLMNOPQRSTUVWXYZ0123456789_")) (txt s) = true ->
      ~ In "g"%byte (txt s) -> simple_name (txt s)).
  { intros s H G. split; [apply word, H|]. apply (occurs_char _ _ "g"%byte); [left; reflexivity|exact G]. }
  assert (FV : forall s t, forallb (fun c => existsb (Byte.eqb c) (txt "abcdefghijklmnopqrstuvwxyzABCDEFGHIJKLMNOPQRSTUVWXYZ0123456789_")) (txt s) = true ->
      ~ In "g"%byte (txt s) ->
      forallb (fun c => existsb (Byte.eqb c) (txt "abcdefghijklmnopqrstuvwxyzABCDEFGHIJKLMNOPQRSTUVWXYZ0123456789_")) (txt t) = true ->
      txt t <> [] ->
      simple_name (gf_name (mkgfield (txt s) [txt t] at_option)) /\ Forall token (gf_type (mkgfield (txt s) [txt t] at_option)) /\
      (no_jget (gf_attrs (mkgfield (txt s) [txt t] at_option)) \/ only_option (gf_attrs (mkgfield (txt s) [txt t] at_option)))).
  { intros s t H G T NT. cbn [gf_name gf_type gf_attrs]. split; [apply SI; assumption|]. split; [|right; exact OO].
    constructor; [|constructor]. apply word in T. destruct (txt t); [congruence|]. left. exact T. }
  split; [|split].
  - repeat apply Forall_cons; [..|apply Forall_nil]; (split; [constructor|split; [|cbn [fields_of gv_fields];
      repeat apply Forall_cons; [..|apply Forall_nil]; (apply FV; [reflexivity|cbn; intuition discriminate|reflexivity|discriminate])]]).
    + cbn. constructor; [tauto|constructor].
    + cbn [fields_of gv_fields map gf_name]. constructor; [cbn; intuition discriminate|]. constructor; [tauto|constructor].
    + constructor.
  - exists (mkgfield (txt "data") [txt "u16"] at_option). split; [right; left; reflexivity|]. repeat split. exact OO.
  - reflexivity.
Qed.

Example C61_forward_type_case : forwards true (mkgvariant (at_list "get_option" [("v", "u8"); ("w", "Option<u8>")]%string) (TupleFields 1))
    [(txt "v", txt "u8"); (txt "w", txt "Option<u8>")] /\
  option_map (map arm_ret) (variant_arms 0 (mkgvariant (at_list "get_option" [("v", "u8"); ("w", "Option<u8>")]%string) (TupleFields 1))) =
  Some [txt "Option<u8>"; txt "Option<u8>"].
Proof.
  split; [|reflexivity]. split; [reflexivity|]. right. split.
  - assert (W : forall s, forallb (fun c => negb (is_white c)) (txt s) = true -> ~ In ","%byte (txt s) -> neat (txt s)).
    { intros s H C. rewrite forallb_forall in H. split; [exact C|]. split; intros c r E B; apply white_iff in B.
      - specialize (H c). rewrite E in H. rewrite B in H. discriminate H. left. reflexivity.
      - specialize (H c). rewrite E in H. rewrite B in H. discriminate H. apply in_app_iff. right. left. reflexivity. }
    split; [discriminate|]. repeat apply Forall_cons; [..|apply Forall_nil]; cbn [fst snd];
      (split; [apply W; [reflexivity|cbn; intuition discriminate]|]; split; [cbn; intuition discriminate|];
       apply W; [reflexivity|cbn; intuition discriminate]).
  - exists [], []. split; [reflexivity|constructor].
Qed.

(** ** Findings *)
Lemma find_first p x : p <> [] -> ~ occurs p x \/ exists a b, x = a ++ p ++ b /\ ~ occurs p a.
Proof.
  intros P. induction x as [|c x [N|(a & b & -> & N)]].
  - left. intros (a & b & E). destruct a; [|discriminate]. destruct p; [congruence|discriminate].
  - destruct (starts_with p (c :: x)) eqn:E.
    + right. apply starts_iff in E as (r & E). exists [], r. split; [exact E|]. intros (a & b & F). destruct a; [|discriminate]. destruct p; [congruence|discriminate].
    + left. intros (a & b & F). destruct a as [|d a].
      * rewrite F in E. cbn [app] in E. now rewrite starts_app in E.
      * injection F as -> ->. apply N. exists a, b. reflexivity.
  - right. destruct (starts_with p (c :: a ++ p ++ b)) eqn:E.
    + apply starts_iff in E as (r & E). exists [], r. split; [exact E|]. intros (a' & b' & F). destruct a'; [|discriminate]. destruct p; [congruence|discriminate].
    + exists (c :: a), b. split; [reflexivity|]. intros (a' & b' & F). destruct a' as [|d a'].
      * cbn [app] in F. assert (H : starts_with p (p ++ b' ++ p ++ b) = true) by apply starts_app. rewrite app_assoc, <- F in H. cbn [app] in H. congruence.
      * injection F as -> ->. apply N. exists a', b'. reflexivity.
Qed.
Lemma without_some n : exists m, without_get n m.
Proof.
  assert (G : forall k n, (List.length n <= k)%nat -> exists m, without_get n m).
  { induction k as [|k IH]; intros x L; [destruct x; [|cbn in L; lia]; exists []; constructor; intros ([|? ?] & ? & E); discriminate|].
    destruct (find_first (txt "get_") x ltac:(discriminate)) as [N|(a & b & -> & N)]; [exists x; now constructor|].
    rewrite !app_length in L. destruct (IH b) as (m & W); [cbn in L; lia|]. exists (a ++ m). now constructor. }
  exact (G _ n (le_n _)).
Qed.
Lemma without_length n m : without_get n m -> (List.length m <= List.length n)%nat.
Proof. induction 1; [lia|]. rewrite !app_length in *. lia. Qed.
Lemma without_same n m : without_get n m -> m = n -> occurs (txt "get_") n -> False.
Proof.
  intros W E O. destruct W as [n H|a b m H W]; [tauto|]. apply without_length in W. apply (f_equal (@List.length _)) in E.
  rewrite !app_length in E. cbn in E. lia.
Qed.
(** *** A field whose name contains [get_] does not get a function of its own name:
    [target_id] is read by [get_tarid()]. Two such names can collide. *)
Theorem C60_name_refuted :
  let f n := mkgfield (txt n) [txt "u8"] at_get in
  (forall into env, struct_call into [] (NamedFields [f "target_id"%string]) (txt "target_id") env = None) /\
  (forall into env t v, env (txt "target_id") = Some (t, v) ->
     struct_call into [] (NamedFields [f "target_id"%string]) (txt "tarid") env = Some (into t (txt "u8") v)) /\
  (forall into env n, struct_call into [] (NamedFields [f "id"%string; f "get_id"%string]) (txt n) env = None).
Proof.
  repeat split.
  - intros into env t v E. unfold struct_call. change (struct_functions [] _) with
      (Some [(txt "tarid", Some (mkgetter (txt "tarid") (txt "u8 ") (txt "target_id") Into false))]).
    cbn [filter fst]. rewrite bytes_eqb_refl. cbn [the_one]. unfold run_getter. cbn [g_path]. rewrite E. reflexivity.
  - intros into env n. unfold struct_call. change (struct_functions [] _) with
      (Some [(txt "id", Some (mkgetter (txt "id") (txt "u8 ") (txt "id") Into false));
             (txt "id", Some (mkgetter (txt "id") (txt "u8 ") (txt "get_id") Into false))]).
    cbn [filter fst]. destruct (bytes_eqb (txt "id") (txt n)); reflexivity.
Qed.
(** So for every such name. (The function it does have is the one of [C60_get_partial].) *)
Theorem C60_lost_name_refuted : forall into env n ts, Forall ident_char n -> occurs (txt "get_") n ->
  struct_call into [] (NamedFields [mkgfield n ts at_get]) n env = None.
Proof.
  intros into env n ts F O. destruct (without_some n) as (m & W).
  assert (L : bytes_eqb m n = false).
  { destruct (bytes_eqb m n) eqn:E; [|reflexivity]. apply bytes_eqb_eq in E. subst m. destruct (without_same _ _ W eq_refl O). }
  unfold struct_call. change (struct_functions [] _) with
    (Some [(get_function_name n, Some (plain_getter (mkgfield n ts at_get) (mkgattrs true [] false [] false false) false))]).
  cbn [filter fst]. rewrite (function_name n m); [now rewrite L|]. exists n. split; [now split|now left].
Qed.
Example C60_lost_name_case : named_for (txt "target_id_get_get_x") (txt "tarid_x") /\ occurs (txt "get_") (txt "target_id_get_get_x").
Proof.
  split; [|exists (txt "tar"), (txt "id_get_get_x"); reflexivity]. split; [apply word; reflexivity|].
  assert (N : forall s, ~ In "g"%byte (txt s) -> ~ occurs (txt "get_") (txt s)).
  { intros s H. apply (occurs_char _ _ "g"%byte); [left; reflexivity|exact H]. }
  apply (wg_some (txt "tar") (txt "id_get_get_x") (txt "id_x")); [apply (N "tar"%string); cbn; intuition discriminate|].
  apply (wg_some (txt "id_") (txt "get_x") (txt "x")); [apply (N "id_"%string); cbn; intuition discriminate|].
  apply (wg_some [] (txt "x") (txt "x")); [apply (N ""%string); cbn; intuition discriminate|].
  apply wg_none. apply (N "x"%string). cbn. intuition discriminate.
Qed.
(** *** [get = "x: u16"] on a field [x: Option<u8>]: the function is declared to return
    [u16] but its body is an [Option], so the derived code does not compile. *)
Theorem C60_option_type_refuted :
  let f := mkgfield (txt "x") [txt "Option"; txt "<"; txt "u8"; txt ">"] (at_list "get" [("x", "u16")]%string) in
  exists g, field_getters f = Some [g] /\ g_ret g = txt "u16" /\
    forall into env o, env (txt "x") = Some (txt "Option<u8>", VOpt o) -> exists w, run_getter into (g_ret g) env g = Some (VOpt w).
Proof.
  eexists. split; [vm_compute; reflexivity|]. split; [reflexivity|].
  intros into env o E. unfold run_getter. cbn [g_path g_step g_some].
  change ["x"%byte] with (txt "x"). rewrite E. destruct o as [w|]; eexists; reflexivity.
Qed.
(** *** A type with a comma is cut in two: [get = "m:HashMap<u8,u16>"]. *)
Theorem C60_comma_refuted :
  get_value_string_list (literal_of [(txt "m", txt "HashMap<u8,u16>")]) = [(txt "m", txt "HashMap<u8"); (txt "u16>", [])].
Proof. reflexivity. Qed.
(** *** A raw string literal keeps its prefix and quotes: [get = r"x:u8"]. *)
Theorem C60_raw_literal_refuted : forall l, get_value_string ("r"%byte :: literal_of l) = "r"%byte :: literal_of l.
Proof. intros l. reflexivity. Qed.
(** *** A raw identifier loses its [r#]: the code for the field [r#type] reads [self.type]. *)
Theorem C60_raw_refuted into env : env (txt "type") = None ->
  struct_call into [] (NamedFields [mkgfield (txt "r#type") [txt "u8"] at_get]) (txt "type") env = None.
Proof.
  intros E. unfold struct_call. change (struct_functions [] _) with
    (Some [(txt "type", Some (mkgetter (txt "type") (txt "u8 ") (txt "type") Into false))]).
  cbn [filter fst]. rewrite bytes_eqb_refl. cbn [the_one]. unfold run_getter. cbn [g_path]. rewrite E. reflexivity.
Qed.

Print Assumptions C60_get_partial.
Print Assumptions C60_get_option_partial.
Print Assumptions C60_convert_partial.
Print Assumptions C60_convert_option_partial.
Print Assumptions C60_vector_partial.
Print Assumptions C60_vector_option_partial.
Print Assumptions C60_single_partial.
Print Assumptions C60_default_partial.
Print Assumptions C60_only.
Print Assumptions C60_listing.
Print Assumptions C60_name_refuted.
Print Assumptions C60_lost_name_refuted.
Print Assumptions C60_option_type_refuted.
Print Assumptions C60_comma_refuted.
Print Assumptions C60_raw_refuted.
Print Assumptions C61_record.
Print Assumptions C61_forward.
Print Assumptions C61_forward_all.
Print Assumptions C61_forward_type.
